(** Proofs about the JSON Pointer model; the property statements are in
    PropsPointer.v. *)
From Verif Require Export BaseFacts Pointer SpecPointer.
Open Scope N_scope.

(** ** Replacement *)
Lemma replace1_cons c new x s :
  str_replace [c] new (x :: s) = (if x =? c then new else [x]) ++ str_replace [c] new s.
Proof.
  unfold str_replace. cbn [replace_aux prefixb length Nat.sub].
  rewrite andb_true_r, (N.eqb_sym c x). destruct (x =? c); reflexivity.
Qed.

Lemma replace2_match a b new s :
  str_replace [a; b] new (a :: b :: s) = new ++ str_replace [a; b] new s.
Proof.
  unfold str_replace. cbn [replace_aux prefixb length Nat.sub].
  rewrite !N.eqb_refl. reflexivity.
Qed.

Lemma replace2_other a b new x s :
  (x <> a \/ hd_error s <> Some b) ->
  str_replace [a; b] new (x :: s) = x :: str_replace [a; b] new s.
Proof.
  intro H. unfold str_replace. cbn [replace_aux prefixb].
  destruct (N.eqb_spec a x); [|reflexivity].
  destruct s as [|y s]; [reflexivity|].
  destruct (N.eqb_spec b y); [|reflexivity].
  subst. simpl in H. destruct H; congruence.
Qed.

Lemma escape_cons c k :
  escape (c :: k) =
    (if c =? 126 then [126; 48] else if c =? 47 then [126; 49] else [c]) ++ escape k.
Proof.
  unfold escape. change (lit "~") with [126]. change (lit "/") with [47].
  change (lit "~0") with [126; 48]. change (lit "~1") with [126; 49].
  rewrite replace1_cons. destruct (N.eqb_spec c 126).
  - cbn [app]. rewrite !replace1_cons. reflexivity.
  - cbn [app]. rewrite replace1_cons. destruct (c =? 47); reflexivity.
Qed.

Lemma unescape_0 s : unescape (126 :: 48 :: s) = 126 :: unescape s.
Proof.
  unfold unescape. change (lit "~1") with [126; 49]. change (lit "~0") with [126; 48].
  rewrite (replace2_other 126 49) by (right; simpl; congruence).
  rewrite (replace2_other 126 49) by (left; congruence).
  rewrite replace2_match. reflexivity.
Qed.

Lemma unescape_1 s : unescape (126 :: 49 :: s) = 47 :: unescape s.
Proof.
  unfold unescape. change (lit "~1") with [126; 49]. change (lit "~0") with [126; 48].
  rewrite replace2_match. cbn [lit app]. change (N_of_ascii "/") with 47.
  rewrite replace2_other by (left; congruence). reflexivity.
Qed.

Lemma unescape_plain c s : c <> 126 -> unescape (c :: s) = c :: unescape s.
Proof.
  intro H. unfold unescape. change (lit "~1") with [126; 49]. change (lit "~0") with [126; 48].
  rewrite replace2_other by auto. rewrite replace2_other by auto. reflexivity.
Qed.

Lemma unescape_escape k : unescape (escape k) = k.
Proof.
  induction k as [|c k IH]; [reflexivity|].
  rewrite escape_cons. destruct (N.eqb_spec c 126).
  - subst. cbn [app]. rewrite unescape_0. congruence.
  - destruct (N.eqb_spec c 47).
    + subst. cbn [app]. rewrite unescape_1. congruence.
    + cbn [app]. rewrite unescape_plain by auto. congruence.
Qed.

(** ** Tokens without the code point bound: the language of one token. *)
Inductive token : pystr -> Prop :=
| tk_nil : token []
| tk_plain c s : c <> 126 -> c <> 47 -> token s -> token (c :: s)
| tk_0 s : token s -> token (126 :: 48 :: s)
| tk_1 s : token s -> token (126 :: 49 :: s).

Lemma token_escape k : token (escape k).
Proof.
  induction k as [|c k IH]; [constructor|].
  rewrite escape_cons. destruct (N.eqb_spec c 126); [now constructor|].
  destruct (N.eqb_spec c 47); [now constructor|]. now constructor.
Qed.

Lemma token_noslash t : token t -> ~ In 47 t.
Proof.
  induction 1; simpl; intuition discriminate.
Qed.

Lemma escape_unescape t : token t -> escape (unescape t) = t.
Proof.
  induction 1.
  - reflexivity.
  - rewrite unescape_plain, escape_cons by auto.
    destruct (N.eqb_spec c 126); [congruence|]. destruct (N.eqb_spec c 47); [congruence|].
    cbn [app]. congruence.
  - rewrite unescape_0, escape_cons.
    change (126 =? 126) with true. cbn [app]. congruence.
  - rewrite unescape_1, escape_cons. change (47 =? 126) with false.
    change (47 =? 47) with true. cbn [app]. congruence.
Qed.

(** Rendering of a list of tokens. *)
Definition render (ts : list pystr) : pystr := List.concat (map (cons 47) ts).

Lemma pointer_str_render p : pointer_str p = render (map escape p).
Proof. unfold pointer_str, render. now rewrite map_map. Qed.

(** ** The regular expression *)
Definition token_re : regex :=
  RStar (RAlt (RClass true [(126, 126); (47, 47)])
              (RCat (rchar 126) (RClass false [(48, 48); (49, 49)]))).

Lemma class_not c : class_ok true [(126, 126); (47, 47)] c = true <-> c <> 126 /\ c <> 47.
Proof.
  unfold class_ok, in_ranges. cbn [existsb fst snd].
  rewrite orb_false_r.
  destruct (N.leb_spec 126 c), (N.leb_spec c 126), (N.leb_spec 47 c), (N.leb_spec c 47);
    simpl; split; intro; try discriminate; try lia; auto.
Qed.

Lemma class_char a c : class_ok false [(a, a)] c = true <-> c = a.
Proof.
  unfold class_ok, in_ranges. cbn [existsb fst snd].
  destruct (N.leb_spec a c), (N.leb_spec c a); simpl; split; intro; try discriminate; try lia; auto.
Qed.

Lemma class_range a b c : class_ok false [(a, b)] c = true <-> a <= c /\ c <= b.
Proof.
  unfold class_ok, in_ranges. cbn [existsb fst snd].
  destruct (N.leb_spec a c), (N.leb_spec c b); simpl; split; intro; try discriminate; try lia; auto.
Qed.

Lemma class_01 c : class_ok false [(48, 48); (49, 49)] c = true <-> c = 48 \/ c = 49.
Proof.
  unfold class_ok, in_ranges. cbn [existsb fst snd].
  destruct (N.leb_spec 48 c), (N.leb_spec c 48), (N.leb_spec 49 c), (N.leb_spec c 49);
    simpl; split; intro; try discriminate; try lia; auto.
Qed.

Lemma lang_char a s : lang (rchar a) s <-> s = [a].
Proof.
  unfold rchar. split.
  - intro H; inversion H; subst. match goal with E : class_ok _ _ _ = true |- _ => apply class_char in E; congruence end.
  - intros ->. constructor. now apply class_char.
Qed.

Lemma lang_token s : lang token_re s <-> token s.
Proof.
  split.
  - unfold token_re. intro H.
    match type of H with lang ?r _ => remember r as q eqn:Eq end.
    induction H; try discriminate.
    + constructor.
    + injection Eq as ->. specialize (IHlang2 eq_refl). clear IHlang1.
      inversion H; subst.
      * match goal with E : lang (RClass _ _) _ |- _ => inversion E; subst end.
        match goal with E : class_ok _ _ _ = true |- _ => apply class_not in E as [] end.
        now constructor.
      * match goal with E : lang (RCat _ _) _ |- _ => inversion E; subst end.
        match goal with E : lang (rchar _) _ |- _ => apply lang_char in E; subst end.
        match goal with E : lang (RClass _ _) _ |- _ => inversion E; subst end.
        match goal with E : class_ok _ _ _ = true |- _ => apply class_01 in E as [->| ->] end;
        now constructor.
  - induction 1.
    + constructor.
    + change (c :: s) with ([c] ++ s). apply LStarCons; auto.
      apply LAltL. constructor. now apply class_not.
    + change (126 :: 48 :: s) with (([126] ++ [48]) ++ s). apply LStarCons; auto.
      apply LAltR. constructor; [now apply lang_char|]. constructor. now apply class_01; auto.
    + change (126 :: 49 :: s) with (([126] ++ [49]) ++ s). apply LStarCons; auto.
      apply LAltR. constructor; [now apply lang_char|]. constructor. now apply class_01; auto.
Qed.

Lemma lang_pointer s :
  lang JSON_POINTER_RE s <-> exists ts, s = render ts /\ Forall token ts.
Proof.
  unfold JSON_POINTER_RE. fold token_re. split.
  - intro H. match type of H with lang ?r _ => remember r as q eqn:Eq end.
    induction H; try discriminate.
    + exists []. split; [reflexivity|constructor].
    + injection Eq as ->. destruct (IHlang2 eq_refl) as (ts & -> & Hts). clear IHlang1 IHlang2.
      inversion H; subst.
      match goal with E : lang (rchar _) _ |- _ => apply lang_char in E; subst end.
      match goal with E : lang token_re ?t |- _ => apply lang_token in E; exists (t :: ts) end.
      split; [|constructor; auto]. reflexivity.
  - intros (ts & -> & H). induction H as [|t ts Ht Hts IH]; [constructor|].
    change (render (t :: ts)) with (([47] ++ t) ++ render ts).
    apply LStarCons; auto. constructor; [now apply lang_char|now apply lang_token].
Qed.

Lemma pointer_match s :
  fullmatch JSON_POINTER_RE s = true <-> exists ts, s = render ts /\ Forall token ts.
Proof. rewrite fullmatch_lang. apply lang_pointer. Qed.

(** ** Splitting *)
Lemma split_nonnil c s : split_char c s <> [].
Proof. destruct s; simpl; [congruence|]. destruct (n =? c); [congruence|].
  destruct (split_char c s); congruence. Qed.

Lemma split_noslash c t : ~ In c t -> split_char c t = [t].
Proof.
  induction t as [|x t IH]; simpl; intro H; auto.
  destruct (N.eqb_spec x c); [tauto|]. now rewrite IH by tauto.
Qed.

Lemma split_app c t s : ~ In c t -> split_char c (t ++ c :: s) = t :: split_char c s.
Proof.
  induction t as [|x t IH]; simpl; intro H.
  - now rewrite N.eqb_refl.
  - destruct (N.eqb_spec x c); [tauto|]. now rewrite IH by tauto.
Qed.

Lemma split_render_from t ts :
  Forall (fun t => ~ In 47 t) (t :: ts) -> split_char 47 (t ++ render ts) = t :: ts.
Proof.
  revert t. induction ts as [|u ts IH]; intros t H; inversion H; subst.
  - unfold render. cbn [map List.concat]. rewrite app_nil_r. now apply split_noslash.
  - change (render (u :: ts)) with (47 :: u ++ render ts).
    rewrite split_app by auto. f_equal. now apply IH.
Qed.

Lemma split_render ts :
  Forall (fun t => ~ In 47 t) ts -> tl (split_char 47 (render ts)) = ts.
Proof.
  intro H. change (render ts) with ([] ++ render ts). now rewrite split_render_from by (constructor; auto).
Qed.

Lemma Forall_noslash ts : Forall token ts -> Forall (fun t => ~ In 47 t) ts.
Proof. apply Forall_impl. apply token_noslash. Qed.

Lemma render_inj ts us : Forall token ts -> Forall token us -> render ts = render us -> ts = us.
Proof.
  intros Ht Hu E. rewrite <- (split_render ts), <- (split_render us) by auto using Forall_noslash.
  now rewrite E.
Qed.

Lemma parse_pointer_unfold s :
  parse_pointer s = if fullmatch JSON_POINTER_RE s
                    then Ok (map unescape (tl (split_char 47 s))) else Exn EPointerMalformed.
Proof.
  unfold parse_pointer, mk_pointer. cbn [mk_pointer_from parg_keys].
  destruct (fullmatch JSON_POINTER_RE s); reflexivity.
Qed.

Lemma parse_render ts : Forall token ts -> parse_pointer (render ts) = Ok (map unescape ts).
Proof.
  intro H. rewrite parse_pointer_unfold.
  replace (fullmatch JSON_POINTER_RE (render ts)) with true.
  - now rewrite split_render by auto using Forall_noslash.
  - symmetry. apply pointer_match. eauto.
Qed.

Lemma parse_inv s p : parse_pointer s = Ok p ->
  exists ts, s = render ts /\ Forall token ts /\ p = map unescape ts.
Proof.
  rewrite parse_pointer_unfold. destruct (fullmatch JSON_POINTER_RE s) eqn:E; [|discriminate].
  apply pointer_match in E as (ts & -> & H). intro Hp. injection Hp as <-.
  exists ts. split; auto. split; auto. now rewrite split_render by auto using Forall_noslash.
Qed.

Lemma parse_str p : parse_pointer (pointer_str p) = Ok p.
Proof.
  rewrite pointer_str_render, parse_render.
  - rewrite map_map. f_equal. erewrite map_ext; [apply map_id|]. apply unescape_escape.
  - apply Forall_forall. intros t Ht. apply in_map_iff in Ht as (k & <- & _). apply token_escape.
Qed.

Lemma str_parse s p : parse_pointer s = Ok p -> pointer_str p = s.
Proof.
  intro H. apply parse_inv in H as (ts & -> & Ht & ->).
  rewrite pointer_str_render, map_map. f_equal.
  induction Ht; simpl; f_equal; auto. now apply escape_unescape.
Qed.

(** ** Agreement of the token language with RFC 6901. *)
Lemma rfc_token_token t : rfc_token t -> token t.
Proof.
  induction 1; try now constructor.
  apply tk_plain; auto; unfold rfc_unescaped in *; lia.
Qed.

Lemma token_rfc_token t : valid_str t -> token t -> rfc_token t.
Proof.
  unfold valid_str. intros V H. revert V. induction H; intro V.
  - constructor.
  - inversion V; subst. apply rt_unescaped; auto. unfold rfc_unescaped. lia.
  - apply rt_escaped0. inversion V as [|? ? ? V']; inversion V'; auto.
  - apply rt_escaped1. inversion V as [|? ? ? V']; inversion V'; auto.
Qed.

Lemma rfc_pointer_render s : rfc_pointer s -> exists ts, s = render ts /\ Forall token ts.
Proof.
  induction 1 as [|t s Ht Hs (ts & -> & Hts)].
  - exists []. split; [reflexivity|constructor].
  - exists (t :: ts). split; [reflexivity|]. constructor; auto. now apply rfc_token_token.
Qed.

Lemma render_rfc_pointer ts : valid_str (render ts) -> Forall token ts -> rfc_pointer (render ts).
Proof.
  intros V H. induction H as [|t ts Ht Hts IH]; [constructor|].
  change (render (t :: ts)) with (47 :: t ++ render ts) in *.
  inversion V as [|? ? ? V']; subst. apply Forall_app in V' as [V1 V2].
  constructor; auto. now apply token_rfc_token.
Qed.

Lemma accept_iff s : valid_str s ->
  ((exists p, parse_pointer s = Ok p) <-> rfc_pointer s).
Proof.
  intro V. split.
  - intros (p & H). apply parse_inv in H as (ts & -> & Ht & _). now apply render_rfc_pointer.
  - intro H. apply rfc_pointer_render in H as (ts & -> & Ht). rewrite parse_render by auto. eauto.
Qed.

Lemma reject_malformed s : (exists p, parse_pointer s = Ok p) \/ parse_pointer s = Exn EPointerMalformed.
Proof. rewrite parse_pointer_unfold. destruct (fullmatch JSON_POINTER_RE s); eauto. Qed.

Lemma token_decodes t : valid_str t -> token t -> rfc_decodes t (unescape t).
Proof.
  unfold valid_str. intros V H. revert V. induction H; intro V.
  - constructor.
  - inversion V; subst. rewrite unescape_plain by auto. constructor; auto.
    unfold rfc_unescaped; lia.
  - inversion V as [|? ? ? V']; inversion V'; subst. rewrite unescape_0. apply rd_escaped0; auto.
  - inversion V as [|? ? ? V']; inversion V'; subst. rewrite unescape_1. apply rd_escaped1; auto.
Qed.

Lemma parse_denotes s p : valid_str s -> parse_pointer s = Ok p -> rfc_denotes s p.
Proof.
  intros V H. apply parse_inv in H as (ts & -> & Ht & ->).
  induction Ht as [|t ts Ht Hts IH]; [constructor|].
  change (render (t :: ts)) with (47 :: t ++ render ts) in *.
  inversion V as [|? ? ? V']; subst. apply Forall_app in V' as [V1 V2].
  simpl map. constructor; auto. now apply token_decodes.
Qed.

(** ** Concatenation and slicing *)
Lemma mk_pointer_from_acc acc vs :
  mk_pointer_from acc vs = let* p := mk_pointer_from [] vs in Ok (acc ++ p).
Proof.
  revert acc. induction vs as [|v vs IH]; intro acc; cbn [mk_pointer_from].
  - simpl. now rewrite app_nil_r.
  - destruct (parg_keys v); simpl; auto. rewrite IH, (IH a).
    destruct (mk_pointer_from [] vs); simpl; auto. now rewrite app_assoc.
Qed.

Lemma mk_pointer_app vs ws :
  mk_pointer (vs ++ ws) = let* p := mk_pointer vs in let* q := mk_pointer ws in Ok (p ++ q).
Proof.
  unfold mk_pointer. induction vs as [|v vs IH]; cbn [mk_pointer_from app].
  - simpl. destruct (mk_pointer_from [] ws); reflexivity.
  - destruct (parg_keys v); simpl; auto. rewrite mk_pointer_from_acc, IH, (mk_pointer_from_acc a vs).
    destruct (mk_pointer_from [] vs); simpl; auto.
    destruct (mk_pointer_from [] ws); simpl; auto. now rewrite app_assoc.
Qed.

(** ** Prefix order *)
Lemma pointer_leb_prefix p q : pointer_leb p q = true <-> is_prefix p q.
Proof.
  unfold pointer_leb, slice_to, is_prefix. rewrite clamp_index_nat, strs_eqb_eq. split.
  - intro H. exists (skipn (Nat.min (length p) (length q)) q).
    rewrite <- (firstn_skipn (Nat.min (length p) (length q)) q) at 1. now rewrite <- H.
  - intros (r & ->). rewrite app_length, Nat.min_l by lia.
    now rewrite firstn_app, firstn_all, Nat.sub_diag, app_nil_r.
Qed.

Lemma pointer_ltb_proper p q : pointer_ltb p q = true <-> is_proper_prefix p q.
Proof.
  unfold pointer_ltb. rewrite andb_true_iff. fold (pointer_leb p q).
  rewrite pointer_leb_prefix. unfold is_prefix, is_proper_prefix.
  rewrite Nat.ltb_lt. split.
  - intros (L & r & ->). rewrite app_length in L. destruct r as [|k r]; [simpl in L; lia|]. eauto.
  - intros (k & r & ->). rewrite app_length. simpl. split; [lia|]. eauto.
Qed.

(** ** Evaluation *)
Lemma lang_digits r :
  lang (RStar (RClass false [(48, 57)])) r <-> forallb ascii_digit r = true.
Proof.
  split.
  - intro H. match type of H with lang ?q _ => remember q as rr eqn:Eq end.
    induction H; try discriminate; auto.
    injection Eq as ->. inversion H; subst. cbn [app forallb]. rewrite IHlang2 by auto.
    match goal with C : class_ok _ _ _ = true |- _ => apply class_range in C as [] end.
    rewrite andb_true_r. unfold ascii_digit. apply andb_true_iff. split; now apply N.leb_le.
  - induction r as [|d r IH]; [constructor|]. cbn [forallb]. intro H3.
    apply andb_true_iff in H3 as [Hd Hr]. change (d :: r) with ([d] ++ r).
    apply LStarCons; auto. constructor. apply class_range.
    unfold ascii_digit in Hd. apply andb_true_iff in Hd as [Ha Hb]. split; now apply N.leb_le.
Qed.

Lemma index_match s :
  fullmatch JSON_INDEX_RE s = true <->
  (s = [48] \/ exists c r, s = c :: r /\ 49 <= c /\ c <= 57 /\ forallb ascii_digit r = true).
Proof.
  rewrite fullmatch_lang. unfold JSON_INDEX_RE. split.
  - intro H. inversion H; subst.
    + left. now apply lang_char.
    + right. match goal with E : lang (RCat _ _) _ |- _ => inversion E; subst end.
      match goal with E : lang (RClass _ _) _ |- _ => inversion E; subst end.
      exists c, s2. split; [reflexivity|].
      match goal with E : class_ok _ _ _ = true |- _ => apply class_range in E as [] end.
      split; auto. split; auto. now apply lang_digits.
  - intros [-> | (c & r & -> & H1 & H2 & H3)].
    + apply LAltL. now apply lang_char.
    + apply LAltR. change (c :: r) with ([c] ++ r). constructor.
      * constructor. now apply class_range.
      * now apply lang_digits.
Qed.

Lemma forallb_digit r : forallb ascii_digit r = true <-> Forall digit r.
Proof.
  rewrite forallb_forall, Forall_forall. unfold ascii_digit, digit.
  split; intros H x Hx; specialize (H x Hx).
  - apply andb_true_iff in H as []. split; now apply N.leb_le.
  - apply andb_true_iff. split; apply N.leb_le; tauto.
Qed.

Lemma index_match_rfc s : fullmatch JSON_INDEX_RE s = true <-> rfc_index_text s.
Proof.
  rewrite index_match. unfold rfc_index_text. split.
  - intros [H|(c & r & E & H1 & H2 & H3)]; [tauto|]. right. exists c, r.
    repeat split; auto. now apply forallb_digit.
  - intros [H|(c & r & E & H1 & H2 & H3)]; [tauto|]. right. exists c, r.
    repeat split; auto. now apply forallb_digit.
Qed.

Lemma digits_tail_value acc s : Forall digit s ->
  digits_tail (Z.of_N acc) s = Some (Z.of_N (fold_left (fun acc c => 10 * acc + (c - 48)) s acc)).
Proof.
  intro H. revert acc. induction H as [|c s Hc Hs IH]; intro acc; cbn [digits_tail fold_left]; auto.
  unfold digit in Hc. rewrite digit_val_ascii.
  - rewrite <- IH. f_equal. lia.
  - unfold ascii_digit. apply andb_true_iff; split; apply N.leb_le; lia.
Qed.

Lemma py_int_index s : rfc_index_text s -> py_int s = Some (Z.of_N (digits_value s)).
Proof.
  intro H.
  assert (D : Forall digit s /\ s <> []).
  { unfold digit. destruct H as [-> | (c & r & -> & H1 & H2 & H3)].
    - split; [|congruence]. repeat constructor; lia.
    - split; [|congruence]. constructor; auto. lia. }
  destruct D as [D N]. rewrite py_int_digits by now apply forallb_digit.
  destruct s as [|c r]; [congruence|]. inversion D; subst. cbn [digits_val].
  unfold digits_value. cbn [fold_left]. unfold digit in *.
  rewrite digit_val_ascii by (unfold ascii_digit; apply andb_true_iff; split; apply N.leb_le; lia).
  rewrite digits_tail_value by auto. reflexivity.
Qed.

Lemma index_digits s : rfc_index_text s -> Forall digit s.
Proof.
  intros [-> | (c & r & -> & L & U & D)].
  - repeat constructor; unfold digit; lia.
  - constructor; auto. unfold digit; lia.
Qed.

Lemma index_print s : fullmatch JSON_INDEX_RE s = true -> exists n, py_int s = Some (Z.of_N n) /\ str_of_N n = s.
Proof.
  intro H. apply index_match in H as H'. apply canonical_print in H' as (n & V & P). exists n. split; auto.
  rewrite py_int_digits; auto. apply forallb_digit, index_digits, index_match_rfc, H.
Qed.
(** An index text is the decimal text of its value. *)
Lemma index_text_print k : rfc_index_text k -> k = str_of_nat (N.to_nat (digits_value k)).
Proof.
  intro H. apply index_match_rfc in H as M. destruct (index_print k M) as (n & V & P).
  rewrite (py_int_index k H) in V. injection V as V. apply N2Z.inj in V. rewrite V.
  unfold str_of_nat. now rewrite N2Nat.id.
Qed.

Lemma nth_norm {A} (l : list A) n :
  match norm_index (length l) (Z.of_N n) with
  | Some k => nth_error l k
  | None => None
  end = nth_error l (N.to_nat n).
Proof.
  destruct (Nat.lt_ge_cases (N.to_nat n) (length l)) as [H|H].
  - replace (Z.of_N n) with (Z.of_nat (N.to_nat n)) by lia. now rewrite norm_index_nat.
  - rewrite norm_index_out by lia. symmetry. now apply nth_error_None.
Qed.

Lemma jwf_dget m k v : jwf (JObj m) = true -> dget k m = Some v -> jwf v = true.
Proof.
  simpl. rewrite andb_true_iff, forallb_forall. intros [_ H] E.
  apply dget_In in E. now apply (H (k, v)).
Qed.

Lemma jwf_NoDup m : jwf (JObj m) = true -> NoDup (keys m).
Proof. simpl. rewrite andb_true_iff. intros [H _]. now apply nodup_keysb_NoDup. Qed.

Lemma jwf_nth l n v : jwf (JArr l) = true -> nth_error l n = Some v -> jwf v = true.
Proof. simpl. rewrite forallb_forall. intros H E. apply nth_error_In in E. auto. Qed.

Lemma child_dec d k : jwf d = true ->
  (exists v, child d k v /\ jwf v = true /\ (forall ks, eval_plain (k :: ks) d = eval_plain ks v)
             /\ forall w, child d k w -> w = v)
  \/ ((forall v, ~ child d k v) /\ forall ks, eval_plain (k :: ks) d = Exn EPointerReference).
Proof.
  intro W. destruct d.
  1-4: right; split; [intros v C; inversion C | reflexivity].
  - destruct (fullmatch JSON_INDEX_RE k) eqn:M.
    + pose proof M as R. apply index_match_rfc in R.
      destruct (nth_error l (N.to_nat (digits_value k))) as [v|] eqn:E.
      * left. exists v. split; [now constructor|]. split; [eapply jwf_nth; eauto|]. split.
        -- intro ks. cbn [eval_plain]. rewrite M, py_int_index by auto.
           pose proof (nth_norm l (digits_value k)) as Q. rewrite E in Q.
           destruct (norm_index (length l) (Z.of_N (digits_value k))); [|discriminate].
           now rewrite Q.
        -- intros w C. inversion C; subst. congruence.
      * right. split.
        -- intros v C. inversion C; subst. congruence.
        -- intro ks. cbn [eval_plain]. rewrite M, py_int_index by auto.
           pose proof (nth_norm l (digits_value k)) as Q. rewrite E in Q.
           destruct (norm_index (length l) (Z.of_N (digits_value k))); auto. now rewrite Q.
    + right. split.
      * intros v C. inversion C; subst.
        match goal with R : rfc_index_text _ |- _ => apply index_match_rfc in R; congruence end.
      * intro ks. cbn [eval_plain]. now rewrite M.
  - destruct (dget k m) as [v|] eqn:E.
    + left. exists v. split; [constructor; now apply dget_In|]. split; [eapply jwf_dget; eauto|]. split.
      * intro ks. cbn [eval_plain]. now rewrite E.
      * intros w C. inversion C; subst.
        match goal with I : In _ _ |- _ => apply In_dget in I; [congruence|now apply jwf_NoDup] end.
    + right. split.
      * intros v C. inversion C; subst.
        match goal with I : In _ _ |- _ => apply In_dget in I; [congruence|now apply jwf_NoDup] end.
      * intro ks. cbn [eval_plain]. now rewrite E.
Qed.

Lemma eval_plain_refers p d v : jwf d = true -> (eval_plain p d = Ok v <-> refers d p v).
Proof.
  revert d. induction p as [|k p IH]; intros d W.
  - split; intro H.
    + injection H as ->. constructor.
    + inversion H; subst. reflexivity.
  - destruct (child_dec d k W) as [(u & C & Wu & E & U) | [C E]].
    + rewrite E, IH by auto. split; intro H.
      * econstructor; eauto.
      * inversion H; subst. match goal with X : child _ _ _ |- _ => apply U in X; subst; auto end.
    + rewrite E. split; intro H; [discriminate|].
      inversion H; subst. exfalso. eapply C; eauto.
Qed.

Lemma eval_plain_error p d : jwf d = true ->
  (exists v, eval_plain p d = Ok v) \/ eval_plain p d = Exn EPointerReference.
Proof.
  revert d. induction p as [|k p IH]; intros d W; [left; eexists; reflexivity|].
  destruct (child_dec d k W) as [(u & C & Wu & E & U) | [C E]]; rewrite E; auto.
Qed.

Lemma eval_plain_app p q d : eval_plain (p ++ q) d = let* v := eval_plain p d in eval_plain q v.
Proof.
  revert d. induction p as [|k p IH]; intro d; cbn [eval_plain app]; auto.
  destruct d; auto.
  - destruct (fullmatch JSON_INDEX_RE k); auto. destruct (py_int k); auto.
    destruct (norm_index (length l) z); auto. destruct (nth_error l n); auto.
  - destruct (dget k m); auto.
Qed.

Lemma eval_node_app p q d : eval_node (p ++ q) d = let* v := eval_node p d in eval_node q v.
Proof.
  revert d. induction p as [|k p IH]; intro d; cbn [eval_node app]; auto.
  destruct d; auto.
  - destruct (py_int k); auto.
    destruct (norm_index (length l) z); auto. destruct (nth_error l n); auto.
  - destruct (dget k m); auto.
Qed.

Lemma eval_plain_node p d v : eval_plain p d = Ok v -> eval_node p d = Ok v.
Proof.
  revert d. induction p as [|k p IH]; intro d; cbn [eval_plain eval_node]; auto.
  destruct d; auto; try discriminate.
  - destruct (fullmatch JSON_INDEX_RE k); try discriminate. destruct (py_int k); auto; try discriminate.
    destruct (norm_index (length l) z); auto; try discriminate. destruct (nth_error l n); auto.
  - destruct (dget k m); auto.
Qed.

(** Where the two evaluations differ: only at an array step whose key is not
    an RFC 6901 index. *)
Fixpoint array_steps_ok (p : pointer) (d : json) : bool :=
  match p with
  | [] => true
  | k :: ks =>
      match d with
      | JObj m => match dget k m with Some v => array_steps_ok ks v | None => true end
      | JArr l => fullmatch JSON_INDEX_RE k &&
                  match py_int k with
                  | Some i => match norm_index (length l) i with
                              | Some n => match nth_error l n with
                                          | Some v => array_steps_ok ks v
                                          | None => true
                                          end
                              | None => true
                              end
                  | None => true
                  end
      | _ => true
      end
  end.

Lemma eval_node_plain_ok p d : array_steps_ok p d = true -> eval_node p d = eval_plain p d.
Proof.
  revert d. induction p as [|k p IH]; intro d; cbn [eval_plain eval_node array_steps_ok]; auto.
  destruct d; auto.
  - rewrite andb_true_iff. intros [M H]. rewrite M. destruct (py_int k); auto.
    destruct (norm_index (length l) z); auto. destruct (nth_error l n); auto.
  - destruct (dget k m); auto.
Qed.

(** ** Slices *)
Lemma firstn_skipn_slice {A} (p : list A) n : firstn (length p - n) (skipn n p) = skipn n p.
Proof. apply firstn_all2. rewrite skipn_length. lia. Qed.

Lemma slice_split p i :
  pointer_div_keys (pointer_slice p None (Some i)) (pointer_slice p (Some i) None) = Ok p.
Proof.
  unfold pointer_div_keys, pointer_slice, mk_pointer. cbn [mk_pointer_from parg_keys bind app].
  rewrite firstn_skipn_slice. cbn [skipn]. rewrite Nat.sub_0_r. now rewrite firstn_skipn.
Qed.

Lemma slice_split3 p i j : (clamp_index (length p) i <= clamp_index (length p) j)%nat ->
  pointer_slice p None (Some i) ++ pointer_slice p (Some i) (Some j) ++ pointer_slice p (Some j) None = p.
Proof.
  unfold pointer_slice. intro H. cbn [skipn]. rewrite Nat.sub_0_r, firstn_skipn_slice.
  set (a := clamp_index (length p) i) in *. set (b := clamp_index (length p) j) in *.
  assert (E : skipn b p = skipn (b - a) (skipn a p)).
  { rewrite <- (firstn_skipn a p) at 1. rewrite skipn_app.
    destruct (Nat.le_gt_cases (length p) a).
    - rewrite (skipn_all2 p) by lia. rewrite !skipn_nil, app_nil_r.
      apply skipn_all2. rewrite firstn_length. lia.
    - rewrite skipn_all2 by (rewrite firstn_length; lia). cbn [app].
      f_equal. rewrite firstn_length. lia. }
  rewrite E, firstn_skipn. apply firstn_skipn.
Qed.

Lemma slice_nat_nth p i j n : (0 <= i)%Z -> (0 <= j)%Z ->
  nth_error (pointer_slice p (Some i) (Some j)) n =
    if (Z.of_nat n + i <? j)%Z then nth_error p (Z.to_nat i + n) else None.
Proof.
  intros Hi Hj. unfold pointer_slice, clamp_index.
  destruct (Z.ltb_spec i 0); [lia|]. destruct (Z.ltb_spec j 0); [lia|].
  set (a := Z.to_nat i). set (b := Z.to_nat j).
  assert (SK : forall k (l : list pystr) n, nth_error (skipn k l) n = nth_error l (k + n)).
  { induction k; intros l n0; cbn [skipn]; auto. destruct l; cbn [nth_error]; auto.
    - now destruct n0. - simpl. apply IHk. }
  assert (F : forall k (l : list pystr) n, nth_error (firstn k l) n = if Nat.ltb n k then nth_error l n else None).
  { induction k; intros l n0; cbn [firstn].
    - destruct n0; reflexivity.
    - destruct l; cbn [nth_error].
      + destruct n0; cbn [nth_error]; [reflexivity|]. destruct (Nat.ltb_spec (S n0) (S k)); reflexivity.
      + destruct n0; cbn [nth_error]; [reflexivity|]. rewrite IHk.
        destruct (Nat.ltb_spec n0 k), (Nat.ltb_spec (S n0) (S k)); auto; lia. }
  rewrite F, SK.
  destruct (Z.ltb_spec (Z.of_nat n + i) j).
  - destruct (Nat.le_gt_cases (length p) (a + n)).
    + assert (nth_error p (a + n) = None) as -> by now apply nth_error_None.
      assert (nth_error p (Nat.min a (length p) + n) = None \/ (Nat.min b (length p) - Nat.min a (length p) <= n)%nat) as [->|?].
      { destruct (Nat.le_gt_cases (length p) (Nat.min a (length p) + n)).
        - left. now apply nth_error_None. - right. lia. }
      * now destruct (Nat.ltb _ _).
      * destruct (Nat.ltb_spec n (Nat.min b (length p) - Nat.min a (length p))); auto; lia.
    + rewrite !Nat.min_l with (n := a) by lia.
      destruct (Nat.ltb_spec n (Nat.min b (length p) - a)); auto. lia.
  - destruct (Nat.ltb_spec n (Nat.min b (length p) - Nat.min a (length p))); auto. lia.
Qed.
