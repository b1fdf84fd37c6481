(** Proofs about Relative JSON Pointers. *)
From Verif Require Export JTreeOps RelPointer SpecRel.
Open Scope nat_scope.

(** ** The three groups *)
Lemma first_some_In {A} (f : nat -> option A) n a : first_some f n = Some a -> exists i, i <= n /\ f i = Some a.
Proof.
  induction n as [|n IH]; simpl; intro H; [exists 0; auto|].
  destruct (first_some f n) as [b|] eqn:E.
  - destruct (IH H) as (i & L & Hi). exists i. split; auto.
  - exists (S n). auto.
Qed.
Lemma first_some_total {A} (f : nat -> option A) n i a : i <= n -> f i = Some a -> exists b, first_some f n = Some b.
Proof.
  induction n as [|n IH]; simpl; intros L H.
  - assert (i = 0) by lia. subst. eauto.
  - destruct (first_some f n) as [b|] eqn:E; eauto.
    destruct (Nat.eq_dec i (S n)) as [->|N]; [eauto|]. destruct IH as (b & Hb); auto; [lia|]. discriminate.
Qed.

Definition cut (s up over ref : pystr) : Prop :=
  s = up ++ over ++ ref /\ fullmatch up_re up = true /\ fullmatch over_re over = true /\ fullmatch ref_re ref = true.

Lemma groups_cut s up over ref : groups s = Some (up, over, ref) -> cut s up over ref.
Proof.
  unfold groups. intro H. apply first_some_In in H as (i & Li & H).
  destruct (fullmatch up_re (firstn i s)) eqn:Eu; [|discriminate].
  apply first_some_In in H as (j & Lj & H).
  destruct (fullmatch over_re _ && fullmatch ref_re _) eqn:E; [|discriminate].
  apply andb_prop in E as [Eo Er]. injection H as <- <- <-. unfold cut. rewrite !firstn_skipn. auto.
Qed.

Lemma cut_groups s up over ref : cut s up over ref -> exists g, groups s = Some g.
Proof.
  intros (-> & U & O & R).
  destruct (first_some_total (fun j => let '(o, r) := (firstn j (over ++ ref), skipn j (over ++ ref)) in
     if fullmatch over_re o && fullmatch ref_re r then Some (up, o, r) else None) (length (over ++ ref)) (length over) (up, over, ref))
    as (b & Hb).
  - rewrite app_length. lia.
  - rewrite firstn_app, Nat.sub_diag, firstn_all, firstn_O, app_nil_r.
    rewrite skipn_app, Nat.sub_diag, skipn_all. cbn [skipn app]. now rewrite O, R.
  - unfold groups. eapply (first_some_total _ _ (length up) b); [rewrite app_length; lia|].
    rewrite firstn_app, Nat.sub_diag, firstn_all, firstn_O, app_nil_r, U.
    rewrite skipn_app, Nat.sub_diag, skipn_all. cbn [skipn app]. exact Hb.
Qed.

Lemma over_match s : fullmatch over_re s = true <-> rel_over_text s.
Proof.
  rewrite fullmatch_lang. unfold over_re, JSON_INDEX_MANIP_RE. split.
  - intro H. inversion H as [| | |? ? ? H1|? ? ? H1| |]; subst.
    + inversion H1 as [| |? ? s1 s2 Hs Hd| | | |]; subst.
      inversion Hd as [| |? ? s3 s4 Hc Hr| | | |]; subst.
      inversion Hc as [|? ? c Hk| | | | |]; subst. apply class_range in Hk as [].
      apply lang_digits, forallb_digit in Hr.
      inversion Hs as [| | |? ? ? Hp|? ? ? Hp| |]; subst; apply lang_char in Hp as ->; cbn [app];
        constructor; auto.
    + inversion H1. constructor.
  - intros [|sign c r S L U D].
    + apply LAltR. constructor.
    + apply LAltL. change (sign :: c :: r) with ([sign] ++ [c] ++ r). constructor.
      * destruct S as [-> | ->]; [apply LAltL|apply LAltR]; now apply lang_char.
      * constructor; [constructor; now apply class_range|]. now apply lang_digits, forallb_digit.
Qed.

Lemma ref_match s : valid_str s -> fullmatch ref_re s = true <-> rel_ref_text s.
Proof.
  intro V. rewrite fullmatch_lang. unfold ref_re. split.
  - intro H. inversion H as [| | |? ? ? H1|? ? ? H1| |]; subst.
    + apply lang_char in H1 as ->. constructor.
    + apply rr_path. apply accept_iff; auto. apply fullmatch_lang in H1.
      apply pointer_match in H1 as (ts & -> & T). exists (map unescape ts). now apply parse_render.
  - intros [|t P].
    + apply LAltL. now apply lang_char.
    + apply LAltR. apply rfc_pointer_render in P as (ts & -> & T). apply fullmatch_lang, pointer_match. eauto.
Qed.

Lemma ref_start s : fullmatch ref_re s = true -> s = [] \/ (exists r, s = 35%N :: r) \/ exists r, s = 47%N :: r.
Proof.
  rewrite fullmatch_lang. unfold ref_re. intro H. inversion H as [| | |? ? ? H1|? ? ? H1| |]; subst.
  - apply lang_char in H1 as ->. eauto.
  - apply fullmatch_lang, pointer_match in H1 as (ts & -> & T). destruct ts; cbn; eauto.
Qed.

Lemma ref_cases s : fullmatch ref_re s = true -> s = [35%N] \/ exists p, parse_pointer s = Ok p /\ s <> [35%N].
Proof.
  rewrite fullmatch_lang. unfold ref_re. intro H. inversion H as [| | |? ? ? H1|? ? ? H1| |]; subst.
  - left. now apply lang_char in H1.
  - right. apply fullmatch_lang, pointer_match in H1 as (ts & -> & T). exists (map unescape ts).
    split; [now apply parse_render|]. destruct ts; discriminate.
Qed.

Definition nodigit (s : pystr) : Prop := match s with [] => True | c :: _ => ~ digit c end.

Lemma digit_split a b x y : Forall digit a -> Forall digit b -> nodigit x -> nodigit y ->
  a ++ x = b ++ y -> a = b /\ x = y.
Proof.
  intros A. revert b. induction A as [|c a C A IH]; intros b B X Y E.
  - destruct B as [|d b D B]; [auto|]. simpl in E. subst x. destruct (X D).
  - destruct B as [|d b D B]; simpl in E.
    + subst y. destruct (Y C).
    + injection E as -> E. destruct (IH b B X Y E) as [-> ->]. auto.
Qed.

Lemma rest_nodigit over ref : rel_over_text over -> fullmatch ref_re ref = true -> nodigit (over ++ ref).
Proof.
  intros [|sign c r S L U D] R.
  - apply ref_start in R as [-> | [(r & ->) | (r & ->)]]; cbn; auto; unfold digit; lia.
  - cbn. unfold digit. destruct S; lia.
Qed.

Lemma cut_unique s u o r u' o' r' : cut s u o r -> cut s u' o' r' -> u = u' /\ o = o' /\ r = r'.
Proof.
  intros (E & U & O & R) (E' & U' & O' & R'). rewrite E in E'.
  apply index_match_rfc in U, U'. apply over_match in O, O'.
  apply digit_split in E' as [-> E2]; auto using index_digits, rest_nodigit. split; auto.
  assert (NR : nodigit r) by (apply (rest_nodigit [] r); [constructor|auto]).
  assert (NR' : nodigit r') by (apply (rest_nodigit [] r'); [constructor|auto]).
  apply ref_start in R, R'.
  destruct O as [|sg c t S L P D], O' as [|sg' c' t' S' L' P' D']; cbn [app] in E2.
  - auto.
  - exfalso. destruct R as [-> | [(q & ->) | (q & ->)]]; [discriminate| |]; injection E2 as E3 _; destruct S'; lia.
  - exfalso. destruct R' as [-> | [(q & ->) | (q & ->)]]; [discriminate| |]; injection E2 as E3 _; destruct S; lia.
  - injection E2 as -> -> E2. apply digit_split in E2 as [-> ->]; auto.
Qed.

(** There is at most one way to cut. *)
Lemma groups_unique s u o r : cut s u o r -> groups s = Some (u, o, r).
Proof.
  intro C. destruct (cut_groups _ _ _ _ C) as ([[u' o'] r'] & G). rewrite G.
  destruct (cut_unique _ _ _ _ _ _ _ C (groups_cut _ _ _ _ G)) as (-> & -> & ->). auto.
Qed.

Lemma full_cut s : fullmatch RELATIVE_JSON_POINTER_RE s = true <-> exists u o r, cut s u o r.
Proof.
  rewrite fullmatch_lang. unfold RELATIVE_JSON_POINTER_RE, cut. split.
  - intro H. inversion H as [| |? ? s1 s2 H1 H2| | | |]; subst. inversion H2 as [| |? ? s3 s4 H3 H4| | | |]; subst.
    exists s1, s3, s4. rewrite !fullmatch_lang. auto.
  - intros (u & o & r & -> & U & O & R). rewrite !fullmatch_lang in *. constructor; auto. constructor; auto.
Qed.

Lemma groups_total s : fullmatch RELATIVE_JSON_POINTER_RE s = true -> exists u o r, groups s = Some (u, o, r) /\ cut s u o r.
Proof. intro H. apply full_cut in H as (u & o & r & C). exists u, o, r. split; auto. now apply groups_unique. Qed.

(** ** Numbers *)
Lemma up_print s : fullmatch up_re s = true -> exists n, py_int s = Some (Z.of_N n) /\ str_of_N n = s.
Proof. apply index_print. Qed.

Lemma digits_pos c r n : (49 <= c)%N -> (c <= 57)%N -> Forall digit r -> digits_val (c :: r) = Some (Z.of_N n) ->
  str_of_N n = c :: r -> n <> 0%N.
Proof. intros L U D _ P ->. vm_compute in P. injection P as <- _. lia. Qed.

Lemma over_print s : rel_over_text s -> s <> [] -> exists z, py_int s = Some z /\ z <> 0%Z /\
  s = (if (z <? 0)%Z then str_of_Z z else 43%N :: str_of_Z z).
Proof.
  intros [|sign c r S L U D] N; [congruence|].
  destruct (canonical_print (c :: r)) as (n & V & P).
  { right. exists c, r. repeat split; auto. now apply forallb_digit. }
  assert (NZ : n <> 0%N) by (eapply digits_pos; eauto).
  assert (F : forallb ascii_digit (c :: r) = true) by (apply forallb_digit; constructor; auto; unfold digit; lia).
  rewrite (py_int_signed sign _ F S). rewrite V. cbn [option_map].
  destruct S as [-> | ->]; cbn [N.eqb Pos.eqb].
  - exists (Z.of_N n). split; auto. split; [lia|]. destruct (Z.ltb_spec (Z.of_N n) 0); [lia|].
    unfold str_of_Z. destruct (Z.ltb_spec (Z.of_N n) 0); [lia|]. rewrite Zabs2N.id, P. auto.
  - exists (- Z.of_N n)%Z. split; auto. split; [lia|]. destruct (Z.ltb_spec (- Z.of_N n) 0); [|lia].
    unfold str_of_Z. destruct (Z.ltb_spec (- Z.of_N n) 0); [|lia].
    replace (Z.abs_N (- Z.of_N n)) with n by lia. now rewrite P.
Qed.

(** ** Parsing and printing *)
Lemma parse_rel_cut s u o r : cut s u o r -> exists n z rf,
  u = str_of_N n /\ o = over_str z (str_of_Z z) /\
  r = (match rf with RefPath p => pointer_str p | RefHash => [35%N] end) /\
  parse_rel s = Ok (mk_rel (Z.of_N n) z rf).
Proof.
  intro C. pose proof C as (_ & U & O & R). unfold parse_rel.
  assert (F : fullmatch RELATIVE_JSON_POINTER_RE s = true) by (apply full_cut; eauto).
  rewrite F, (groups_unique _ _ _ _ C).
  destruct (up_print u U) as (n & -> & P). exists n.
  apply over_match in O.
  assert (exists z, o = over_str z (str_of_Z z) /\ over_str z o = over_str z (str_of_Z z) /\
     (match o with [] => Some 0%Z | _ => py_int o end) = Some z) as (z & Eo & Es & Ez).
  { destruct o as [|c o]; [exists 0%Z; auto|].
    destruct (over_print _ O) as (z & V & NZ & T); [congruence|]. exists z. rewrite V. unfold over_str.
    destruct (Z.eqb_spec z 0); [lia|]. rewrite T. destruct (z <? 0)%Z; auto. }
  exists z. rewrite Ez. destruct (ref_cases r R) as [-> | (p & Pp & NR)].
  - exists RefHash. split; auto. split; auto. split; auto. cbn [str_eqb lit]. unfold mk_rel. rewrite Es. reflexivity.
  - exists (RefPath p). split; auto. split; auto. split; [symmetry; now apply str_parse|].
    assert (E : str_eqb r (lit "#") = false) by (apply str_eqb_neq; exact NR). rewrite E, Pp. unfold mk_rel. now rewrite Es.
Qed.

Lemma parse_rel_str s r : parse_rel s = Ok r -> rel_str r = s.
Proof.
  intro H. destruct (fullmatch RELATIVE_JSON_POINTER_RE s) eqn:F; [|unfold parse_rel in H; rewrite F in H; discriminate].
  apply full_cut in F as (u & o & rf & C). pose proof C as (E & _).
  destruct (parse_rel_cut _ _ _ _ C) as (n & z & rr & -> & -> & -> & P). rewrite P in H. injection H as <-.
  rewrite E. unfold rel_str, mk_rel. cbn [r_up r_over_str r_index r_path].
  unfold str_of_Z at 1. destruct (Z.ltb_spec (Z.of_N n) 0); [lia|]. rewrite Zabs2N.id.
  destruct rr; reflexivity.
Qed.

Lemma str_of_N_index n : fullmatch up_re (str_of_N n) = true.
Proof.
  apply index_match. destruct (str_of_N_canonical n) as [H|H]; [left|right]; auto.
Qed.

Lemma over_str_text z : rel_over_text (over_str z (str_of_Z z)).
Proof.
  unfold over_str. destruct (Z.eqb_spec z 0) as [|NZ0]; [constructor|].
  assert (forall n, n <> 0%N -> exists c r, str_of_N n = c :: r /\ (49 <= c)%N /\ (c <= 57)%N /\ Forall digit r) as F.
  { intros n NZ. destruct (str_of_N_canonical n) as [H | (c & r & E & L & U & D)].
    - exfalso. apply NZ. apply str_of_N_inj. rewrite H. reflexivity.
    - exists c, r. rewrite E. repeat split; auto. now apply forallb_digit. }
  unfold str_of_Z. destruct (Z.ltb_spec z 0).
  - destruct (F (Z.abs_N z)) as (c & r & -> & L & U & D); [lia|]. constructor; auto.
  - destruct (F (Z.abs_N z)) as (c & r & -> & L & U & D); [lia|]. constructor; auto.
Qed.

Definition ref_text (rf : refarg) : pystr := match rf with RefPath p => pointer_str p | RefHash => [35%N] end.

Lemma ref_text_match rf : fullmatch ref_re (ref_text rf) = true.
Proof.
  apply fullmatch_lang. destruct rf as [p|]; cbn [ref_text].
  - apply LAltR. apply fullmatch_lang, pointer_match. pose proof (parse_str p) as H. apply parse_inv in H as (ts & E & T & _). eauto.
  - apply LAltL. now apply lang_char.
Qed.

Lemma ref_text_inj a b : ref_text a = ref_text b -> a = b.
Proof.
  assert (N : forall p, pointer_str p <> [35%N]).
  { intros [|k p] E; cbn in E; [discriminate|]. injection E as E1 _. lia. }
  destruct a as [p|], b as [q|]; cbn [ref_text]; intro E; auto.
  - f_equal. pose proof (parse_str p) as H. rewrite E, parse_str in H. congruence.
  - destruct (N _ E).
  - destruct (N _ (eq_sym E)).
Qed.

Lemma over_str_inj z z' : over_str z (str_of_Z z) = over_str z' (str_of_Z z') -> z = z'.
Proof.
  intro E. pose proof (over_str_text z) as T. pose proof (over_str_text z') as T'.
  assert (K : forall z, over_str z (str_of_Z z) = [] -> z = 0%Z).
  { intro y. unfold over_str, str_of_Z. destruct (Z.eqb_spec y 0); auto. destruct (y <? 0)%Z; discriminate. }
  assert (V : forall z, z <> 0%Z -> py_int (over_str z (str_of_Z z)) = Some z).
  { intros y NY. unfold over_str. destruct (Z.eqb_spec y 0); [lia|]. destruct (Z.ltb_spec y 0); [apply py_int_str_of_Z|].
    unfold str_of_Z. destruct (Z.ltb_spec y 0); [lia|]. rewrite py_int_signed; auto using str_of_N_digits.
    rewrite digits_val_str_of_N. cbn. f_equal. lia. }
  destruct (Z.eq_dec z 0) as [->|N].
  - symmetry. apply K. rewrite <- E. reflexivity.
  - destruct (Z.eq_dec z' 0) as [->|N']; [apply K; rewrite E; reflexivity|].
    pose proof (V z N) as A. rewrite E, V in A by auto. congruence.
Qed.

Lemma parse_rel_of_str up z rf : (0 <= up)%Z -> parse_rel (rel_str (mk_rel up z rf)) = Ok (mk_rel up z rf).
Proof.
  intro U. assert (E : rel_str (mk_rel up z rf) = str_of_N (Z.to_N up) ++ over_str z (str_of_Z z) ++ ref_text rf).
  { unfold rel_str, mk_rel. cbn [r_up r_over_str r_index r_path]. unfold str_of_Z at 1.
    destruct (Z.ltb_spec up 0); [lia|]. replace (Z.abs_N up) with (Z.to_N up) by lia. destruct rf; reflexivity. }
  assert (C : cut (rel_str (mk_rel up z rf)) (str_of_N (Z.to_N up)) (over_str z (str_of_Z z)) (ref_text rf)).
  { split; auto. split; [apply str_of_N_index|]. split; [apply over_match, over_str_text|apply ref_text_match]. }
  destruct (parse_rel_cut _ _ _ _ C) as (n & z' & rf' & En & Ez & Er & P). rewrite P.
  apply str_of_N_inj in En. apply over_str_inj in Ez. apply (ref_text_inj rf rf') in Er. subst.
  rewrite Z2N.id by auto. reflexivity.
Qed.

(** ** Evaluation *)
Lemma located_snoc_inv h r q k c : located h r (q ++ [k]) c -> exists a, located h r q a /\ child_at h a k c.
Proof.
  intro L. destruct (located_last _ _ _ _ L) as (q' & k' & a & E & L' & C); [destruct q; discriminate|].
  apply app_inj_tail in E as [-> ->]. eauto.
Qed.
Lemma located_app h r p m q n : located h r p m -> located h m q n -> located h r (p ++ q) n.
Proof. intros L M. induction M; [now rewrite app_nil_r|]. rewrite app_assoc. econstructor; eauto. Qed.
Lemma located_split h r p q n : located h r (p ++ q) n -> exists m, located h r p m /\ located h m q n.
Proof.
  revert r. induction p as [|k p IH]; intros r L; [exists r; split; auto; constructor|].
  cbn [app] in L. apply located_uncons in L as (c & C & L). destruct (IH _ L) as (m & M & N).
  exists m. split; auto. eapply located_cons; eauto.
Qed.
Lemma located_fun h r p n m : shape h -> located h r p n -> located h r p m -> n = m.
Proof. intros Sh L M. apply (located_eval p h r n Sh) in L. apply (located_eval p h r m Sh) in M. congruence. Qed.

Lemma go_up_spec h r : shape h -> is_root h r -> forall up p n, located h r p n ->
  match go_up h n up with
  | Ok m => exists q s, p = q ++ s /\ length s = up /\ located h r q m
  | Exn e => e = ERelReference /\ length p < up
  | Fuel => False
  end.
Proof.
  intros Sh [_ R0]. induction up as [|up IH]; intros p n L; cbn [go_up].
  - exists p, []. rewrite app_nil_r. auto.
  - destruct L as [|p a k c L C].
    + rewrite R0. split; auto. simpl. lia.
    + apply (sh_child h Sh) in C as (_ & _ & -> & _). specialize (IH _ _ L).
      destruct (go_up h a up) as [m|e|]; auto.
      * destruct IH as (q & s & -> & <- & Lq). exists q, (s ++ [k]). rewrite app_assoc. split; auto. split; auto.
        rewrite app_length. simpl. lia.
      * destruct IH as [-> U]. split; auto. rewrite app_length. simpl. lia.
Qed.

Lemma go_over_spec h r p n z : shape h -> is_root h r -> located h r p n ->
  match go_over h n z with
  | Ok m => (z = 0%Z /\ m = n) \/
      (z <> 0%Z /\ exists q i k a ids, p = q ++ [str_of_nat i] /\ located h r q a /\ ndata (getn h a) = DArr ids /\
         (Z.of_nat i + z)%Z = Z.of_nat k /\ k < length ids /\ located h r (q ++ [str_of_nat k]) m)
  | Exn e => e = ERelReference /\ z <> 0%Z /\
      (forall q i k a ids, p = q ++ [str_of_nat i] -> located h r q a -> ndata (getn h a) = DArr ids ->
         (Z.of_nat i + z)%Z = Z.of_nat k -> k < length ids -> False)
  | Fuel => False
  end.
Proof.
  intros Sh [R R0] L. unfold go_over. destruct (Z.eqb_spec z 0) as [->|NZ]; [auto|].
  destruct L as [|p a k c L C].
  { rewrite R0. split; auto. split; auto. intros q i k a ids E. destruct q; discriminate. }
  apply (sh_child h Sh) in C as C'. destruct C' as (_ & _ & -> & K).
  assert (NA : (forall ids, ndata (getn h a) <> DArr ids) -> ERelReference = ERelReference /\ z <> 0%Z /\
      (forall q i k' a' ids, p ++ [k] = q ++ [str_of_nat i] -> located h r q a' -> ndata (getn h a') = DArr ids ->
         (Z.of_nat i + z)%Z = Z.of_nat k' -> k' < length ids -> False)).
  { intro N. split; auto. split; auto. intros q i k' a' ids E L' D _ _. apply app_inj_tail in E as [-> ->].
    rewrite (located_fun _ _ _ _ _ Sh L' L) in D. exact (N _ D). }
  destruct (ndata (getn h a)) as [|b|x|s|ids|m] eqn:E; try (apply NA; congruence).
  clear NA. destruct (child_at_arr _ _ _ _ _ E C) as (j & -> & Hj).
  unfold int_key. rewrite K. rewrite <- str_of_Z_nat, py_int_str_of_Z. cbn [bind]. rewrite str_of_Z_nat.
  destruct ((Z.of_nat j + z <? 0) || (Z.of_nat (length ids) <=? Z.of_nat j + z))%Z eqn:O.
  - split; auto. split; auto. intros q i k a' ids' Eq L' D Ek Bk. apply app_inj_tail in Eq as [-> Eq].
    apply str_of_nat_inj in Eq as <-. rewrite (located_fun _ _ _ _ _ Sh L' L) in D. rewrite E in D. injection D as <-.
    apply orb_prop in O as [O|O]; [apply Z.ltb_lt in O|apply Z.leb_le in O]; lia.
  - apply orb_false_iff in O as [O1 O2]. apply Z.ltb_ge in O1. apply Z.leb_gt in O2.
    unfold getitem. rewrite E.
    assert (B : Z.to_nat (Z.of_nat j + z) < length ids) by lia.
    pose proof (norm_index_nat (length ids) (Z.to_nat (Z.of_nat j + z)) B) as NI.
    rewrite Z2Nat.id in NI by lia. rewrite NI. destruct (nth_error_lt ids _ B) as (c' & Hc'). rewrite Hc'.
    right. split; auto. exists p, j, (Z.to_nat (Z.of_nat j + z)), a, ids. split; auto. split; auto. split; auto.
    split; [lia|]. split; auto. econstructor; eauto. econstructor; eauto.
Qed.

(** Both steps together. *)
Definition go_base (h : heap) (n : id) (up over : Z) : res id :=
  let* n := go_up h n (Z.to_nat up) in go_over h n over.

Lemma prefix_same (p q q' s s' : list pystr) : p = q ++ s -> p = q' ++ s' -> length s = length s' -> q = q' /\ s = s'.
Proof.
  intros -> E L. assert (LL : length q = length q') by (apply (f_equal (@length _)) in E; rewrite !app_length in E; lia).
  clear L. revert q' E LL. induction q as [|x q IH]; intros [|y q'] E LL; simpl in *; try discriminate; auto.
  injection E as -> E. destruct (IH q' E) as [-> ->]; auto.
Qed.

Lemma go_base_spec h r p n up over : shape h -> is_root h r -> located h r p n -> (0 <= up)%Z ->
  match go_base h n up over with
  | Ok m => exists q, rel_base h r p (Z.to_nat up) over q /\ located h r q m
  | Exn e => e = ERelReference /\ forall q, ~ rel_base h r p (Z.to_nat up) over q
  | Fuel => False
  end.
Proof.
  intros Sh R L U. unfold go_base. pose proof (go_up_spec h r Sh R (Z.to_nat up) p n L) as G.
  destruct (go_up h n (Z.to_nat up)) as [m|e|]; cbn [bind]; [| |auto].
  - destruct G as (q & s & -> & Ls & Lq). pose proof (go_over_spec h r q m over Sh R Lq) as O.
    destruct (go_over h m over) as [m'|e|]; [| |auto].
    + destruct O as [[-> ->] | (NZ & q' & i & k & a & ids & -> & La & D & Ek & Bk & Lm)].
      * exists q. split; auto. constructor; auto; [rewrite app_length; lia|]. exists s; auto.
      * exists (q' ++ [str_of_nat k]). split; auto.
        eapply rb_over with (i := i) (a := a) (ids := ids); eauto.
        -- rewrite !app_length. simpl. lia.
        -- exists s; auto.
    + destruct O as (-> & NZ & F). split; auto. intros q0 B. inversion B as [q1 E1 P1 Z1|q1 i k a ids E1 (s1 & P1) Z1 La D Ek Bk]; subst; [congruence|].
      assert (Len : length s = length s1).
      { apply (f_equal (@length _)) in P1. rewrite !app_length in *. simpl in *. lia. }
      destruct (prefix_same _ _ _ _ _ eq_refl P1 Len) as [-> ->]. eapply F; eauto.
  - destruct G as [-> Gl]. split; auto. intros q B. inversion B; subst; lia.
Qed.

Lemma rel_base_fun h r p up over q q' : shape h -> rel_base h r p up over q -> rel_base h r p up over q' -> q = q'.
Proof.
  intros Sh [q1 L1 (s1 & P1) Z1|q1 i k a ids L1 (s1 & P1) Z1 La D Ek Bk]
    [q2 L2 (s2 & P2) Z2|q2 i2 k2 a2 ids2 L2 (s2 & P2) Z2 La2 D2 Ek2 Bk2]; try congruence.
  - subst p. destruct (prefix_same _ _ _ _ _ eq_refl P2) as [-> _]; auto.
    apply (f_equal (@length _)) in P2. rewrite !app_length in *. lia.
  - subst p. destruct (prefix_same _ _ _ _ _ eq_refl P2) as [E _].
    + apply (f_equal (@length _)) in P2. rewrite !app_length in *. simpl in *. lia.
    + apply app_inj_tail in E as [-> E]. apply str_of_nat_inj in E as ->. f_equal. f_equal. f_equal. lia.
Qed.

Lemma rel_eval_base up over rf h n : rel_eval (mk_rel up over rf) h n =
  let* m := go_base h n up over in
  match rf with
  | RefHash =>
    match nparent (getn h m) with
    | None => Exn ERelReference
    | Some p =>
        match ndata (getn h p) with
        | DArr _ => let* z := int_key h m in Ok (RVIndex z)
        | _ => match nkey (getn h m) with Some k => Ok (RVKey k) | None => Exn EOther end
        end
    end
  | RefPath p =>
     match eval_id p h m with
     | Ok t => Ok (RVNode t)
     | Exn EPointerReference => Exn ERelReference
     | Exn e => Exn e
     | Fuel => Fuel
     end
  end.
Proof.
  unfold rel_eval, go_base, mk_rel. cbn [r_up r_over r_index r_path].
  destruct (go_up h n (Z.to_nat up)) as [a|e|]; cbn [bind]; auto. destruct (go_over h a over); cbn [bind]; auto.
  destruct rf; auto.
Qed.

Lemma rel_hash_spec h r p n up over : shape h -> is_root h r -> located h r p n -> (0 <= up)%Z ->
  match rel_eval (mk_rel up over RefHash) h n with
  | Ok v => rel_denotes h r p (Z.to_nat up) over RefHash v
  | Exn e => e = ERelReference /\ forall v, ~ rel_denotes h r p (Z.to_nat up) over RefHash v
  | Fuel => False
  end.
Proof.
  intros Sh R L U. rewrite rel_eval_base. pose proof (go_base_spec h r p n up over Sh R L U) as G.
  destruct (go_base h n up over) as [m|e|]; cbn [bind]; [| |auto].
  - destruct G as (q & B & Lq). destruct Lq as [|q a k c Lq C].
    + destruct R as [_ R0]. rewrite R0. split; auto. intros v V. inversion V as [|q1 i1 a1 ids1 B1|q1 k1 a1 m1 B1]; subst;
        apply (rel_base_fun _ _ _ _ _ _ _ Sh B) in B1; destruct q1; discriminate.
    + apply (sh_child h Sh) in C as C'. destruct C' as (_ & _ & -> & K). unfold int_key. rewrite K.
      destruct (ndata (getn h a)) as [|b|x|s|ids|m] eqn:E;
        try (apply child_at_of in C; rewrite E in C; inversion C; discriminate).
      * destruct (child_at_arr _ _ _ _ _ E C) as (j & -> & Hj).
        rewrite <- str_of_Z_nat, py_int_str_of_Z. cbn [bind]. econstructor; eauto.
      * eapply rd_key; eauto.
  - destruct G as [-> N]. split; auto. intros v V. inversion V as [|q1 i1 a1 ids1 B1|q1 k1 a1 m1 B1]; subst; eapply N; eauto.
Qed.

Lemma rel_denotes_hash_fun h r p up over v w : shape h ->
  rel_denotes h r p up over RefHash v -> rel_denotes h r p up over RefHash w -> v = w.
Proof.
  intros Sh V W. inversion V as [|q i a ids B L D|q k a m B L D]; subst; inversion W as [|q' i' a' ids' B' L' D'|q' k' a' m' B' L' D']; subst;
    pose proof (rel_base_fun _ _ _ _ _ _ _ Sh B B') as E; apply app_inj_tail in E as [<- E];
    pose proof (located_fun _ _ _ _ _ Sh L L') as <-; try congruence.
  apply str_of_nat_inj in E as ->. auto.
Qed.

Lemma eval_id_exact p : forall h m, shape h -> indices_at_arrays h m p ->
  match eval_id p h m with
  | Ok t => located h m p t
  | Exn e => e = EPointerReference /\ forall t, ~ located h m p t
  | Fuel => False
  end.
Proof.
  induction p as [|k p IH]; intros h m Sh A; cbn [eval_id]; [constructor|].
  assert (Down : forall c, child_at h m k c -> (forall c', child_at h m k c' -> c' = c) ->
    match eval_id p h c with
    | Ok t => located h m (k :: p) t
    | Exn e => e = EPointerReference /\ forall t, ~ located h m (k :: p) t
    | Fuel => False
    end).
  { intros c C Un. assert (A' : indices_at_arrays h c p).
    { intros a k' b x ids -> L D. eapply (A (k :: a)); eauto; [reflexivity|]. eapply located_cons; eauto. }
    specialize (IH h c Sh A'). destruct (eval_id p h c) as [t|e|]; auto.
    - eapply located_cons; eauto.
    - destruct IH as [-> N]. split; auto. intros t L. apply located_uncons in L as (c' & C' & L).
      rewrite (Un _ C') in L. exact (N t L). }
  assert (None_ : (forall c, ~ child_at h m k c) -> EPointerReference = EPointerReference /\ forall t, ~ located h m (k :: p) t).
  { intro N. split; auto. intros t L. apply located_uncons in L as (c' & C' & L). exact (N _ C'). }
  destruct (ndata (getn h m)) as [|b|x|s|ids|ms] eqn:E;
    try (apply None_; intros c C; apply child_at_of in C; rewrite E in C; inversion C; discriminate).
  - assert (T : rfc_index_text k) by (eapply (A []); eauto; [reflexivity|constructor]).
    rewrite (py_int_index k T). set (j := N.to_nat (digits_value k)).
    replace (Z.of_N (digits_value k)) with (Z.of_nat j) by (unfold j; lia).
    pose proof (index_text_print k T) as Ek. fold j in Ek.
    destruct (Nat.lt_ge_cases j (length ids)) as [B|B].
    + rewrite norm_index_nat by auto. destruct (nth_error_lt ids j B) as (c & Hc). rewrite Hc. apply Down.
      * rewrite Ek. econstructor; eauto.
      * intros c' C'. destruct (child_at_arr _ _ _ _ _ E C') as (j' & Ej & Hj'). rewrite Ek in Ej.
        apply str_of_nat_inj in Ej as <-. congruence.
    + rewrite norm_index_out by lia. apply None_. intros c' C'.
      destruct (child_at_arr _ _ _ _ _ E C') as (j' & Ej & Hj'). rewrite Ek in Ej.
      apply str_of_nat_inj in Ej as <-. apply nth_error_bound in Hj'. lia.
  - destruct (dget k ms) as [c|] eqn:Ec.
    + apply Down.
      * eapply ca_member; eauto. now apply dget_In.
      * intros c' C'. apply (child_at_obj _ _ _ _ _ E) in C'. rewrite (In_dget _ _ _ (sh_nodup h Sh m ms E) C') in Ec. congruence.
    + apply None_. intros c' C'. apply (child_at_obj _ _ _ _ _ E) in C'. rewrite (In_dget _ _ _ (sh_nodup h Sh m ms E) C') in Ec. congruence.
Qed.

Lemma rel_path_ok h r p n up over ref v : shape h -> is_root h r -> located h r p n -> (0 <= up)%Z ->
  rel_denotes h r p (Z.to_nat up) over (RefPath ref) v -> rel_eval (mk_rel up over (RefPath ref)) h n = Ok v.
Proof.
  intros Sh R L U V. rewrite rel_eval_base. pose proof (go_base_spec h r p n up over Sh R L U) as G.
  inversion V as [q ref' t B Lt| |]; subst.
  destruct (go_base h n up over) as [m|e|]; cbn [bind]; [| |tauto].
  - destruct G as (q' & B' & Lq'). rewrite (rel_base_fun _ _ _ _ _ _ _ Sh B' B) in Lq'.
    apply located_split in Lt as (m' & Lm' & Lt). rewrite (located_fun _ _ _ _ _ Sh Lm' Lq') in Lt.
    now rewrite (located_eval _ _ _ _ Sh Lt).
  - destruct G as [_ N]. destruct (N _ B).
Qed.

Lemma rel_path_exact h r p n up over ref : shape h -> is_root h r -> located h r p n -> (0 <= up)%Z ->
  (forall q m, rel_base h r p (Z.to_nat up) over q -> located h r q m -> indices_at_arrays h m ref) ->
  match rel_eval (mk_rel up over (RefPath ref)) h n with
  | Ok v => rel_denotes h r p (Z.to_nat up) over (RefPath ref) v
  | Exn e => e = ERelReference /\ forall v, ~ rel_denotes h r p (Z.to_nat up) over (RefPath ref) v
  | Fuel => False
  end.
Proof.
  intros Sh R L U A. rewrite rel_eval_base. pose proof (go_base_spec h r p n up over Sh R L U) as G.
  destruct (go_base h n up over) as [m|e|]; cbn [bind]; [| |auto].
  - destruct G as (q & B & Lq). pose proof (eval_id_exact ref h m Sh (A _ _ B Lq)) as X.
    destruct (eval_id ref h m) as [t|e|]; auto.
    + econstructor; eauto. eapply located_app; eauto.
    + destruct X as [-> N]. split; auto. intros v V. inversion V as [q' ref' t B' Lt| |]; subst.
      rewrite (rel_base_fun _ _ _ _ _ _ _ Sh B' B) in Lt. apply located_split in Lt as (m' & Lm' & Lt).
      rewrite (located_fun _ _ _ _ _ Sh Lm' Lq) in Lt. exact (N _ Lt).
  - destruct G as [-> N]. split; auto. intros v V. inversion V; subst. eapply N; eauto.
Qed.
