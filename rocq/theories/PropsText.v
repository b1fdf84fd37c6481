(** C83: JSON text, json_dumps and json_loads. *)
From Coq Require Import String List Bool Lia QArith.
From Verif Require Import BaseFacts JsonFacts SpecText TextFacts.
Import ListNotations.
Open Scope list_scope.
Open Scope N_scope.

Section Total.
Context (F : floats).
Definition answers (x : res (json * pystr)) : Prop := (exists v r, x = Ok (v, r)) \/ x = Exn EValue.
Lemma number_answers s : answers (scan_number F s).
Proof.
  unfold scan_number, answers. destruct (sign_part s) as [g r]. destruct (int_part r) as [[i r1]|]; [|auto]. destruct (frac_part r1) as [f r2]. destruct (exp_part r2) as [e r3].
  destruct f, e; try destruct (py_int (g ++ i)); eauto.
Qed.
Lemma items_answer value : reads F value -> forall n s acc, (forall s', (length s' <= length s)%nat -> answers (value s')) -> (length s < n)%nat -> answers (scan_items value n acc s).
Proof.
  intro V. induction n as [|n IH]; intros s acc A L; [lia|]. cbn. destruct (A s (le_n _)) as [(v & r & E)|E]; rewrite E; cbn; [|now right].
  apply V in E as (t & D & ->). destruct (denotes_head F t v D) as (c0 & t' & -> & _). cbn in L. rewrite app_length in L.
  pose proof (ws_length r) as Lr. destruct (ws r) as [|c r']; [now right|]. cbn in Lr. destruct (c =? 93); [left; eauto|]. destruct (c =? 44); [|now right].
  pose proof (ws_length r'). apply IH; [|lia]. intros s' Ls. apply A. cbn. rewrite app_length. lia.
Qed.
Lemma members_answer value : reads F value -> forall n s acc, (forall s', (length s' <= length s)%nat -> answers (value s')) -> (length s < n)%nat -> answers (scan_members value n acc s).
Proof.
  intro V. induction n as [|n IH]; intros s acc A L; [lia|]. cbn. destruct s as [|q s]; [now right|]. destruct (q =? 34); [|now right]. cbn in L.
  destruct (scan_string s) as [[k r1]|] eqn:Ek; [|now right]. apply scan_string_sound in Ek as (qq & _ & ->). rewrite app_length in L. cbn in L.
  pose proof (ws_length r1) as L1. destruct (ws r1) as [|c r2]; [now right|]. cbn in L1. destruct (c =? 58); [|now right].
  pose proof (ws_length r2) as L2. destruct (A (ws r2)) as [(v & r & E)|E]; [cbn; rewrite app_length; cbn; lia| |rewrite E; now right].
  rewrite E. cbn. apply V in E as (t & D & E). rewrite E, app_length in L2. pose proof (ws_length r) as Lr. destruct (ws r) as [|c4 r4]; [now right|]. cbn in Lr.
  destruct (c4 =? 125); [left; eauto|]. destruct (c4 =? 44); [|now right]. pose proof (ws_length r4). apply IH; [|lia]. intros s' Ls. apply A. cbn. rewrite app_length. cbn. lia.
Qed.
Lemma once_answers n : forall s, (length s < n)%nat -> answers (scan_once F n s).
Proof.
  induction n as [|n IH]; intros s L; [lia|]. destruct s as [|c s]; [now right|]. cbn in L. cbn -[drop_prefix lit scan_number].
  destruct (c =? 34). { destruct (scan_string s) as [[t r]|]; [left; eauto|now right]. }
  destruct (c =? 123).
  { pose proof (ws_length s). destruct (ws s) as [|d r']; [now right|]. destruct (d =? 125); [left; eauto|].
    apply members_answer; [apply scan_once_sound| |lia]. intros s' Ls. apply IH. lia. }
  destruct (c =? 91).
  { pose proof (ws_length s). destruct (ws s) as [|d r']; [now right|]. destruct (d =? 93); [left; eauto|].
    apply items_answer; [apply scan_once_sound| |lia]. intros s' Ls. apply IH. lia. }
  destruct (drop_prefix (lit "null") (c :: s)); [left; eauto|]. destruct (drop_prefix (lit "true") (c :: s)); [left; eauto|]. destruct (drop_prefix (lit "false") (c :: s)); [left; eauto|].
  destruct (drop_prefix (lit "NaN") (c :: s)); [now right|]. destruct (drop_prefix (lit "Infinity") (c :: s)); [now right|]. destruct (drop_prefix (lit "-Infinity") (c :: s)); [now right|].
  apply number_answers.
Qed.
End Total.

(** json_loads reads exactly the documents of RFC 8259, as the values they
    stand for; of all other texts it raises ValueError. *)
Theorem C83_loads : forall F s,
  (forall v, json_loads F s = Ok v <-> document F s v)
  /\ ((forall v, ~ document F s v) -> json_loads F s = Exn EValue).
Proof.
  intros F s.
  assert (A : answers (scan_once F (S (length s)) (ws s))) by (apply once_answers; pose proof (ws_length s); lia).
  assert (S : forall v, json_loads F s = Ok v -> document F s v).
  { intro v. unfold json_loads. destruct (match s with c :: _ => c =? 65279 | [] => false end); [discriminate|].
    destruct (scan_once F (S (length s)) (ws s)) as [[x r]| |] eqn:E; cbn; try discriminate. apply scan_once_sound in E as (t & D & E).
    destruct (ws_split s) as (w & B & Es). destruct (ws_split r) as (w' & B' & Er). destruct (ws r); [|discriminate]. intro H. injection H as <-.
    exists w, t, w'. rewrite app_nil_r in Er. rewrite Es, E, Er. auto. }
  assert (C : forall v, document F s v -> json_loads F s = Ok v).
  { intros v (w & t & w' & B & D & B' & Es). unfold json_loads.
    assert (Bom : match s with c :: _ => c =? 65279 | [] => false end = false).
    { subst s. destruct B as [|c w Hc B]; cbn.
      - destruct (denotes_head F t v D) as (c & t' & -> & _ & _ & _ & N). cbn. now apply N.eqb_neq.
      - apply N.eqb_neq. lia. }
    rewrite Bom. assert (E : ws s = t ++ w') by (subst s; apply ws_blank; [exact B|eapply denotes_starts; eassumption]).
    rewrite E. assert (Lt : (length t < Datatypes.S (length s))%nat) by (subst s; rewrite !app_length; lia).
    assert (St : stops w') by (destruct B' as [|c r Hc]; cbn; auto; left; now apply is_ws_iff).
    rewrite (proj1 (complete F) t v D _ w' Lt St). cbn. pose proof (ws_blank w' [] B' I) as Ew. rewrite app_nil_r in Ew. now rewrite Ew. }
  split; [split; auto|]. intro N. destruct (json_loads F s) as [v|e|] eqn:E; [elim (N v); auto| |]; revert E; unfold json_loads;
  (destruct (match s with c :: _ => c =? 65279 | [] => false end); [auto; discriminate|]); destruct A as [(x & r & E)|E]; rewrite E; cbn; try destruct (ws r); congruence.
Qed.
Print Assumptions C83_loads.

(** ** Writing. *)
Lemma ok_inj {A} (a b : A) : Ok a = Ok b -> a = b.
Proof. congruence. Qed.
Lemma bind_ok {A B} (x : res A) (f : A -> res B) b : bind x f = Ok b -> exists a, x = Ok a /\ f a = Ok b.
Proof. destruct x; cbn; try discriminate. eauto. Qed.

Lemma texts_all (l : list (res pystr)) : (forall x, In x l -> (exists t, x = Ok t) \/ x = Exn EValue) ->
  (exists ts, all_texts l = Ok ts) \/ (all_texts l = Exn EValue /\ In (Exn EValue) l).
Proof.
  induction l as [|x l IH]; intro H; [left; now exists []|]. cbn. destruct (H x (or_introl eq_refl)) as [(t & ->)| ->]; cbn; [|auto].
  destruct IH as [(ts & E)|(E & I)]; [intros y I; apply H; now right| |]; rewrite E; cbn; eauto.
Qed.
Lemma texts_ok (l : list (res pystr)) ts : all_texts l = Ok ts -> Forall2 (fun x t => x = Ok t) l ts.
Proof.
  revert ts. induction l as [|x l IH]; cbn; intros ts H.
  - injection H as <-. constructor.
  - apply bind_ok in H as (t & -> & H). apply bind_ok in H as (ts' & E & H). injection H as <-. constructor; auto.
Qed.

(** json_dumps raises ValueError of a value with a NaN or an infinity in it,
    and otherwise gives a text. *)
Theorem C83_dumps : forall F v,
  (non_finite v -> json_dumps F v = Exn EValue) /\ (~ non_finite v -> exists t, json_dumps F v = Ok t).
Proof.
  intros F v.
  assert (H : (non_finite v /\ json_dumps F v = Exn EValue) \/ (~ non_finite v /\ exists t, json_dumps F v = Ok t)).
  { induction v as [|[]|[z|m e|b|]|s|l IH|m IH] using json_induction; cbn; try (left; split; [constructor|reflexivity]); try solve [right; split; [intro X; inversion X|eauto]].
    - assert (T : (exists ts, all_texts (map (json_dumps F) l) = Ok ts) \/ (all_texts (map (json_dumps F) l) = Exn EValue /\ In (Exn EValue) (map (json_dumps F) l))).
      { apply texts_all. intros x I. apply in_map_iff in I as (y & <- & I). rewrite Forall_forall in IH. destruct (IH y I) as [(_ & E)|(_ & E)]; auto. }
      rewrite Forall_forall in IH. destruct T as [(ts & E)|(E & I)]; rewrite E; cbn.
      + right. split; [|eauto]. intro X. inversion X as [| |l0 x0 I0 Nx0 E0|]; subst l0; rename x0 into x; rename I0 into I. destruct (IH x I) as [(_ & Ex)|(No & _)]; [|contradiction].
        apply texts_ok in E. clear - E Ex I. assert (J : In (json_dumps F x) (map (json_dumps F) l)) by now apply in_map. rewrite Ex in J.
        induction E as [|y t l' ts Ey E' IHE]; [contradiction|]. destruct J as [->|J]; [discriminate Ey|auto].
      + left. split; [|reflexivity]. apply in_map_iff in I as (y & Ey & I). destruct (IH y I) as [(Ny & _)|(_ & t & Et)]; [|congruence]. econstructor; eassumption.
    - match goal with |- context [map ?f m] => set (g := f) end.
      rewrite Forall_forall in IH.
      assert (T : (exists ts, all_texts (map g m) = Ok ts) \/ (all_texts (map g m) = Exn EValue /\ In (Exn EValue) (map g m))).
      { apply texts_all. intros x I. apply in_map_iff in I as (y & <- & I). unfold g. destruct (IH y I) as [(_ & E)|(_ & t & E)]; rewrite E; cbn; eauto. }
      destruct T as [(ts & E)|(E & I)]; rewrite E; cbn.
      + right. split; [|eauto]. intro X. inversion X as [| | |d0 k x I Nx E0]; subst d0. destruct (IH _ I) as [(_ & Ex)|(No & _)]; [|contradiction]. cbn in Ex.
        apply texts_ok in E. assert (J : In (g (k, x)) (map g m)) by now apply in_map. assert (G : g (k, x) = Exn EValue) by (unfold g; cbn; now rewrite Ex). rewrite G in J. clear - E J.
        induction E as [|y t l' ts Ey E' IHE]; [contradiction|]. destruct J as [->|J]; [discriminate Ey|auto].
      + left. split; [|reflexivity]. apply in_map_iff in I as ([k y] & Ey & I). destruct (IH _ I) as [(Ny & _)|(_ & t & Et)]; cbn in *; [econstructor; eassumption|].
        unfold g in Ey. cbn in Ey. rewrite Et in Ey. discriminate Ey. }
  split; intro N; destruct H as [(A & B)|(A & B)]; try contradiction; exact B.
Qed.
Print Assumptions C83_dumps.

Lemma hex_digit_value d : d < 16 -> hexadecimal (hex_digit d) d.
Proof.
  intro H. unfold hex_digit. destruct (N.ltb_spec d 10).
  - constructor. lia.
  - replace (87 + d) with (97 + (d - 10)) by lia. apply hex_af. lia.
Qed.
Lemma hex4_text_unit c : c < 65536 -> unit_of (hex4_text c) c.
Proof.
  intro H. unfold hex4_text.
  assert (E : c = 4096 * (c / 4096 mod 16) + 256 * (c / 256 mod 16) + 16 * (c / 16 mod 16) + c mod 16).
  { pose proof (N.div_mod c 16 ltac:(lia)) as E1. pose proof (N.div_mod (c / 16) 16 ltac:(lia)) as E2. pose proof (N.div_mod (c / 256) 16 ltac:(lia)) as E3.
    rewrite (N.div_div c 16 16) in E2 by lia. rewrite (N.div_div c 256 16) in E3 by lia. change (16 * 16) with 256 in E2. change (256 * 16) with 4096 in E3.
    assert (E4 : c / 4096 mod 16 = c / 4096) by (apply N.mod_small, N.div_lt_upper_bound; lia). lia. }
  rewrite E at 5. constructor; apply hex_digit_value, N.mod_lt; lia.
Qed.
Lemma string_spells s : spells (flat_map escape_char s) s.
Proof.
  induction s as [|c s IH]; [constructor|]. cbn. unfold escape_char.
  repeat match goal with |- context [if c =? ?n then _ else _] => destruct (N.eqb_spec c n) as [->|]; [apply sp_escape; [constructor|exact IH]|] end.
  destruct (N.ltb_spec c 32).
  - cbn [app]. apply sp_unit; [apply hex4_text_unit; lia| |exact IH]. intros ((A & _) & _). lia.
  - cbn [app]. apply sp_char; auto.
Qed.
Lemma integer_text n : integer_part (str_of_N n) /\ decimal_value (str_of_N n) = Z.of_N n.
Proof.
  assert (D : decimal (str_of_N n)).
  { destruct (str_of_N_nonempty n) as (c & r & E & _). split; [now rewrite E|]. pose proof (str_of_N_digits n) as A. rewrite forallb_forall in A. apply Forall_forall. intros x I.
    specialize (A x I). unfold ascii_digit in A. rewrite andb_true_iff, !N.leb_le in A. exact A. }
  split.
  - destruct (str_of_N_canonical n) as [E|(c & r & E & A & B & _)]; [left; exact E|]. right. split; [exact D|]. exists c, r. split; [exact E|lia].
  - pose proof (digits_value _ D) as V. rewrite digits_val_str_of_N in V. congruence.
Qed.

Lemma commas_items F ts l : l <> [] -> Forall2 (denotes F) ts l -> items F (commas ts) l.
Proof.
  intros Ne H. assert (G : forall w, blank w -> items F (w ++ commas ts) l); [|apply (G []); constructor].
  induction H as [|t v ts l D H IH]; [contradiction|]. intros w B. destruct H as [|t' v' ts l D' H].
  - cbn. rewrite <- (app_nil_r t). constructor; auto. constructor.
  - assert (C : commas (t :: t' :: ts) = t ++ [] ++ 44 :: [32] ++ commas (t' :: ts)) by reflexivity. rewrite C.
    apply i_more; auto; [constructor|]. apply IH; [discriminate|]. constructor; [auto|constructor].
Qed.
Lemma commas_members F (m : list (pystr * json)) ts : m <> [] -> Forall2 (fun kv t => exists u, denotes F u (snd kv) /\ t = string_text (fst kv) ++ 58 :: 32 :: u) m ts -> members F (commas ts) m.
Proof.
  intros Ne H. assert (G : forall w, blank w -> members F (w ++ commas ts) m); [|apply (G []); constructor].
  induction H as [|[k v] t m ts (u & D & ->) H IH]; [contradiction|]. intros w B. cbn [fst snd] in *. destruct H as [|kv' t' m ts D' H].
  - cbn [commas]. replace (w ++ string_text k ++ 58 :: 32 :: u) with (w ++ 34 :: flat_map escape_char k ++ 34 :: [] ++ 58 :: [32] ++ u ++ [])
      by (unfold string_text; rewrite app_nil_r; cbn; now rewrite <- app_assoc).
    apply m_last; auto using string_spells; try (constructor; [auto|constructor]); constructor.
  - assert (C : forall t, commas (t :: t' :: ts) = t ++ 44 :: 32 :: commas (t' :: ts)) by reflexivity. rewrite C.
    replace (w ++ (string_text k ++ 58 :: 32 :: u) ++ 44 :: 32 :: commas (t' :: ts)) with (w ++ 34 :: flat_map escape_char k ++ 34 :: [] ++ 58 :: [32] ++ u ++ [] ++ 44 :: ([32] ++ commas (t' :: ts)))
      by (unfold string_text; cbn [app]; repeat (rewrite <- !app_assoc; cbn [app]); reflexivity).
    apply m_more; auto using string_spells; try (constructor; [auto|constructor]); try constructor.
    apply IH; [discriminate|]. constructor; [auto|constructor].
Qed.
Lemma collect_distinct (m : list (pystr * json)) : NoDup (keys m) -> collect m = m.
Proof.
  unfold collect. assert (G : forall m (acc : list (pystr * json)), NoDup (keys (acc ++ m)) -> fold_left (fun d kv => dset (fst kv) (snd kv) d) m acc = acc ++ m); [|apply (G m [])].
  clear m. induction m as [|[k v] m IH]; intros acc N; cbn; [now rewrite app_nil_r|].
  assert (E : dset k v acc = acc ++ [(k, v)]).
  { assert (Nk : ~ In k (keys acc)). { unfold keys in N. rewrite map_app in N. cbn in N. apply NoDup_remove_2 in N. intro I. apply N. apply in_or_app. now left. }
    clear - Nk. induction acc as [|[k' v'] acc IH]; [reflexivity|]. cbn. destruct (str_eqb_spec k k') as [->|]; [elim Nk; now left|]. rewrite IH; [reflexivity|]. intro I. apply Nk. now right. }
  rewrite E, IH; rewrite <- app_assoc; [reflexivity|exact N].
Qed.


Lemma dumps_denotes F v : jwf v = true -> agree F v -> forall t, json_dumps F v = Ok t -> exists v', denotes F t v' /\ again v v'.
Proof.
  induction v as [|[]|[z|m e|b|]|s|l IH|m IH] using json_induction; intros W A t H; cbn [json_dumps] in H; try discriminate H.
  - apply ok_inj in H. subst t. exists JNull. split; [apply d_null|constructor].
  - apply ok_inj in H. subst t. exists (JBool true). split; [apply d_true|constructor].
  - apply ok_inj in H. subst t. exists (JBool false). split; [apply d_false|constructor].
  - apply ok_inj in H. subst t. exists (JNum (NInt z)). split; [|constructor]. unfold str_of_Z. destruct (integer_text (Z.abs_N z)) as [I V]. destruct (Z.ltb_spec z 0).
    + replace z with (- decimal_value (str_of_N (Z.abs_N z)))%Z at 2 by (rewrite V; lia). now apply d_neg.
    + replace z with (decimal_value (str_of_N (Z.abs_N z))) at 2 by (rewrite V; lia). now apply d_int.
  - apply ok_inj in H. subst t. destruct (A m e (fl_here m e)) as (T & m' & e' & E & Q). exists (JNum (NDyad m' e')). split; [|now constructor].
    rewrite <- E. now apply d_float.
  - apply ok_inj in H. subst t. exists (JStr s). split; [|constructor]. apply d_string, string_spells.
  - apply bind_ok in H as (ts & H & E). apply ok_inj in E. subst t. apply texts_ok in H.
    assert (X : exists l', Forall2 (denotes F) ts l' /\ Forall2 again l l').
    { assert (W' : forall x, In x l -> jwf x = true) by (cbn in W; rewrite forallb_forall in W; exact W).
      assert (A' : forall x, In x l -> agree F x) by (intros x I m e Fl; apply A; econstructor; eassumption). clear W A.
      revert ts H. induction IH as [|x l Hx _ IHl]; intros ts H; cbn in H; inversion H as [|? t ? ts' Et H']; subst.
      - exists []. split; constructor.
      - destruct (Hx (W' x (or_introl eq_refl)) (A' x (or_introl eq_refl)) t Et) as (x' & D & Ag).
        destruct (IHl (fun y I => W' y (or_intror I)) (fun y I => A' y (or_intror I)) ts' H') as (l' & D' & Ag'). exists (x' :: l'). split; constructor; auto. }
    destruct X as (l' & D & Ag). exists (JArr l'). split; [|now constructor]. destruct l' as [|x l'].
    + inversion D; subst. apply (d_empty F []). constructor.
    + apply d_array, commas_items; [discriminate|exact D].
  - apply bind_ok in H as (ts & H & E). apply ok_inj in E. subst t. apply texts_ok in H. apply jwf_obj in W as [Nd W]. rewrite Forall_forall in W.
    assert (X : exists m', Forall2 (fun kv t => exists u, denotes F u (snd kv) /\ t = string_text (fst kv) ++ 58 :: 32 :: u) m' ts /\ Forall2 (fun a b => fst a = fst b /\ again (snd a) (snd b)) m m').
    { assert (A' : forall k x, In (k, x) m -> agree F x) by (intros k x I m0 e Fl; apply A; econstructor; eassumption). clear A Nd.
      revert ts H. induction IH as [|[k x] m Hx _ IHm]; intros ts H; cbn in H; inversion H as [|? t ? ts' Et H']; subst.
      - exists []. split; constructor.
      - cbn in Et. apply bind_ok in Et as (u & Eu & Et). apply ok_inj in Et. subst t. destruct (Hx (W (k, x) (or_introl eq_refl)) (A' k x (or_introl eq_refl)) u Eu) as (x' & D & Ag).
        destruct IHm with (ts := ts') as (m' & D' & Ag'); auto; [intros kv I; apply W; now right|intros k' y I; apply (A' k' y); now right|].
        exists ((k, x') :: m'). split; constructor; cbn; auto. exists u. auto. }
    destruct X as (m' & D & Ag).
    assert (K : keys m' = keys m) by (clear - Ag; induction Ag as [|a b m m' (E & _) _ IH]; [reflexivity|]; change (fst b :: keys m' = fst a :: keys m); now rewrite E, IH).
    exists (JObj m'). split; [|now constructor]. destruct m' as [|kv m'].
    + inversion D; subst. apply (d_none F []). constructor.
    + rewrite <- (collect_distinct (kv :: m')) by (rewrite K; exact Nd). apply d_object, commas_members; [discriminate|exact D].
Qed.

(** What is written is read back as the same value. *)
Theorem C83_round_trip : forall F v t, jwf v = true -> agree F v -> json_dumps F v = Ok t ->
  exists v', json_loads F t = Ok v' /\ again v v'.
Proof.
  intros F v t W A H. destruct (dumps_denotes F v W A t H) as (v' & D & Ag). exists v'. split; [|exact Ag].
  apply (C83_loads F t). exists [], t, []. rewrite app_nil_r. repeat split; auto; constructor.
Qed.
Print Assumptions C83_round_trip.

(** In particular it compares equal, and different values are written
    differently. *)
Lemma again_equal v : jwf v = true -> forall v', again v v' -> jwf v' = true /\ jeq v v'.
Proof.
  induction v as [| |n|s|l IH|m IH] using json_induction; intros W v' A; inversion A as [|b0|z|m0 e m' e' Q|s'|l0 l' Fa|d d' Fa]; subst.
  - split; [reflexivity|constructor].
  - split; [reflexivity|constructor].
  - split; [reflexivity|]. constructor. apply same_number_refl. discriminate.
  - split; [reflexivity|]. constructor. now apply same_number_sym.
  - split; [reflexivity|constructor].
  - apply jwf_arr in W. assert (X : Forall (fun v => jwf v = true) l' /\ length l = length l' /\ (forall n x y, nth_error l n = Some x -> nth_error l' n = Some y -> jeq x y)).
    { clear A. revert l' Fa. induction IH as [|x l Hx _ IHl]; intros l' Fa; inversion Fa as [|? y ? l'' Ay Fa']; subst.
      - split; [constructor|]. split; [reflexivity|]. intros [|n] x y E; discriminate E.
      - inversion W as [|? ? Wx Wl]; subst. destruct (IHl Wl _ Fa') as (A1 & A2 & A3). destruct (Hx Wx _ Ay) as [B1 B2]. split; [now constructor|]. split; [cbn; now rewrite A2|].
        intros [|n] x' y' Ex Ey; cbn in Ex, Ey; [congruence|eauto]. }
    destruct X as (A1 & A2 & A3). split; [now apply jwf_arr|now constructor].
  - apply jwf_obj in W as [Nd W].
    assert (X : Forall (fun kv => jwf (snd kv) = true) d' /\ keys d' = keys m /\ (forall k x y, dget k m = Some x -> dget k d' = Some y -> jeq x y)).
    { clear A. clear Nd. revert d' Fa. induction IH as [|[k x] m Hx _ IHm]; intros d' Fa; inversion Fa as [|? [k' y] ? d'' (Ek & Ay) Fa']; subst.
      - split; [constructor|]. split; [reflexivity|]. intros k x y E; discriminate E.
      - inversion W as [|? ? Wx Wl]; subst. cbn in *. subst k'. destruct (IHm Wl _ Fa') as (A1 & A2 & A3). destruct (Hx Wx _ Ay) as [B1 B2]. split; [now constructor|]. split; [change (k :: keys d'' = k :: keys m); now rewrite A2|].
        intros k' x' y' Ex Ey. destruct (str_eqb k' k); [congruence|eauto]. }
    destruct X as (A1 & A2 & A3). split; [apply jwf_obj; rewrite A2; auto|]. constructor.
    + intro k. change (In k (keys m) <-> In k (keys d')). now rewrite A2.
    + intros k x y Ix Iy. apply A3 with k; apply In_dget; auto. now rewrite A2.
Qed.
Theorem C83_equal : forall F v t, jwf v = true -> agree F v -> json_dumps F v = Ok t ->
  exists v', json_loads F t = Ok v' /\ jwf v' = true /\ json_eqb v v' = true.
Proof.
  intros F v t W A H. destruct (C83_round_trip F v t W A H) as (v' & L & Ag). destruct (again_equal v W v' Ag) as [W' Q]. exists v'.
  split; [exact L|]. split; [exact W'|]. now apply json_eqb_jeq.
Qed.
Print Assumptions C83_equal.
Theorem C83_injective : forall F v w t, jwf v = true -> jwf w = true -> agree F v -> agree F w ->
  json_dumps F v = Ok t -> json_dumps F w = Ok t -> json_eqb v w = true.
Proof.
  intros F v w t Wv Ww Av Aw Ev Ew. destruct (C83_equal F v t Wv Av Ev) as (v' & L & W' & Q). destruct (C83_equal F w t Ww Aw Ew) as (w' & L' & _ & Q').
  rewrite L in L'. apply ok_inj in L'. subst w'. rewrite json_eqb_sym in Q' by assumption. eapply json_eqb_trans; [| | |exact Q|exact Q']; assumption.
Qed.
Print Assumptions C83_injective.

(** Objects that are read have distinct names. *)
Lemma collect_nodup (m : list (pystr * json)) : NoDup (keys (collect m)).
Proof.
  unfold collect. assert (G : forall m (acc : list (pystr * json)), NoDup (keys acc) -> NoDup (keys (fold_left (fun d kv => dset (fst kv) (snd kv) d) m acc))); [|apply G; constructor].
  clear. induction m as [|kv m IH]; intros acc N; [exact N|]. cbn. apply IH. now apply NoDup_dset.
Qed.
Lemma dset_all (P : json -> Prop) k v (m : list (pystr * json)) : P v -> Forall (fun kv => P (snd kv)) m -> Forall (fun kv => P (snd kv)) (dset k v m).
Proof.
  intros Hv. induction 1 as [|[k' v'] m H Hm IH]; cbn; [constructor; [exact Hv|constructor]|]. destruct (str_eqb k k'); constructor; cbn in *; auto.
Qed.
Lemma collect_all (P : json -> Prop) (m : list (pystr * json)) : Forall (fun kv => P (snd kv)) m -> Forall (fun kv => P (snd kv)) (collect m).
Proof.
  unfold collect. assert (G : forall m (acc : list (pystr * json)), Forall (fun kv => P (snd kv)) acc -> Forall (fun kv => P (snd kv)) m -> Forall (fun kv => P (snd kv)) (fold_left (fun d kv => dset (fst kv) (snd kv) d) m acc)); [|apply G; constructor].
  clear. induction m as [|kv m IH]; intros acc A H; [exact A|]. inversion H; subst. cbn. apply IH; [|assumption]. now apply dset_all.
Qed.
Theorem C83_well_formed : forall F s v, json_loads F s = Ok v -> jwf v = true.
Proof.
  intros F s v H. apply C83_loads in H as (w & t & w' & _ & D & _). clear w w'.
  revert t v D. apply (denotes_mind F (fun _ v => jwf v = true) (fun _ l => Forall (fun v => jwf v = true) l) (fun _ m => Forall (fun kv => jwf (snd kv) = true) m)); try reflexivity; auto.
  - intros t l _ H. now apply jwf_arr.
  - intros t m _ H. apply jwf_obj. split; [apply collect_nodup|exact (collect_all (fun v => jwf v = true) m H)].
Qed.
Print Assumptions C83_well_formed.

(** A case: a float function that knows 1.5 and overflows at 1e400. *)
Definition some_floats : floats := {|
  f_repr m e := lit "1.5";
  f_parse s := if str_eqb s (lit "1.5") then NDyad 3 (-1) else NInf false |}.

(** Reading can give a value that cannot be written: 1e400 is a number of RFC
    8259, and float() makes an infinity of it. *)
Theorem C83_writable_refuted :
  exists F s v, json_loads F s = Ok v /\ json_dumps F v = Exn EValue /\ document F s v.
Proof.
  exists some_floats, (lit "1e400"), (JNum (NInf false)).
  assert (E : json_loads some_floats (lit "1e400") = Ok (JNum (NInf false))) by (vm_compute; reflexivity).
  split; [exact E|]. split; [reflexivity|]. now apply C83_loads.
Qed.
Print Assumptions C83_writable_refuted.

(** An object with an escaped key, a surrogate pair on the way in, a repeated
    name, nesting; and texts that are refused: a trailing comma, a leading
    zero, NaN, a bare control character, a byte order mark. *)
Definition written : json :=
  JObj [(lit "a""b", JArr [JNum (NInt (-12)); JNum (NDyad 3 (-1)); JNull; JBool true]); ([128512; 9; 1], JObj [])].
Example C83_case :
  json_dumps some_floats written = Ok (lit "{""a\""b"": [-12, 1.5, null, true], """ ++ [128512] ++ lit "\t\u0001"": {}}")
  /\ json_loads some_floats (lit "{""a\""b"": [-12, 1.5, null, true], """ ++ [128512] ++ lit "\t\u0001"": {}}") = Ok written
  /\ json_loads some_floats (lit " { ""x"" : 1 , ""y"":""\ud83d\ude00\ud83d"", ""x"":[ ] } ") = Ok (JObj [(lit "x", JArr []); (lit "y", JStr [128512; 55357])])
  /\ Forall (fun s => json_loads some_floats s = Exn EValue)
       [lit "[1,]"; lit "01"; lit "1."; lit "NaN"; lit "-Infinity"; lit "[1 2]"; 34 :: 10 :: lit """"; 65279 :: lit "1"; lit """\u12"""; lit ""; lit "1 1"; lit "{""a"" 1}"]
  /\ jwf written = true /\ agree some_floats written /\ ~ non_finite written.
Proof.
  split; [vm_compute; reflexivity|]. split; [vm_compute; reflexivity|]. split; [vm_compute; reflexivity|]. split; [repeat constructor|]. split; [reflexivity|].
  split.
  - intros m e Fl. assert (E : m = 3%Z /\ e = (-1)%Z).
    { unfold written in Fl. inversion Fl as [|? ? ? ? I Fl'|? ? ? ? ? I Fl']; subst. destruct I as [E|[E|[]]]; injection E as <- <-.
      - inversion Fl' as [|? ? ? ? I Fl''|]; subst. repeat (destruct I as [<-|I]; [inversion Fl''; auto|]). contradiction.
      - inversion Fl' as [| |? ? ? ? ? I Fl'']; subst. contradiction. }
    destruct E as [-> ->]. split.
    + assert (D49 : decimal [49]) by (split; [discriminate|]; constructor; [lia|constructor]). assert (D53 : decimal [53]) by (split; [discriminate|]; constructor; [lia|constructor]).
      exists [], [49], [46; 53], []. split; [constructor|]. split; [right; split; [exact D49|]; exists 49, []; split; [reflexivity|discriminate]|].
      split; [now constructor|]. split; [constructor|]. split; [left; discriminate|reflexivity].
    + exists 3%Z, (-1)%Z. split; [reflexivity|]. apply same_number_refl. discriminate.
  - intro X. destruct (C83_dumps some_floats written) as [D _]. specialize (D X). vm_compute in D. discriminate D.
Qed.
