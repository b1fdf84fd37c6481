(** Proofs about percent-encoding. *)
From Verif Require Export PointerFacts Quote SpecQuote.
Open Scope N_scope.

Lemma between_iff lo hi b : between lo hi b = true <-> lo <= b /\ b <= hi.
Proof. unfold between. rewrite andb_true_iff, !N.leb_le. reflexivity. Qed.
Lemma between_false lo hi b : between lo hi b = false <-> b < lo \/ hi < b.
Proof. unfold between. rewrite andb_false_iff, !N.leb_gt. reflexivity. Qed.
Lemma cont_iff b : cont b = true <-> 128 <= b /\ b <= 191.
Proof. apply between_iff. Qed.

Lemma divmod c d : d <> 0 -> exists q r, c / d = q /\ c mod d = r /\ c = d * q + r /\ r < d.
Proof. intro H. exists (c / d), (c mod d). repeat split; auto. - now apply N.div_mod. - now apply N.mod_lt. Qed.

Lemma utf8_roundtrip1 c bs r : utf8_encode1 c = Some bs -> c <= 1114111 ->
  utf8_decode (bs ++ r) = c :: utf8_decode r.
Proof.
  unfold utf8_encode1. intros H B.
  destruct (N.ltb_spec c 128) as [L1|L1].
  { injection H as <-. cbn [app utf8_decode]. destruct (N.ltb_spec c 128); [reflexivity|lia]. }
  destruct (N.ltb_spec c 2048) as [L2|L2].
  { injection H as <-. destruct (divmod c 64 ltac:(discriminate)) as (q & m & -> & -> & E & M).
    cbn [app utf8_decode].
    destruct (N.ltb_spec (192 + q) 128); [lia|].
    replace (between 194 223 (192 + q)) with true by (symmetry; apply between_iff; lia).
    replace (cont (128 + m)) with true by (symmetry; apply cont_iff; lia).
    f_equal. lia. }
  destruct ((55296 <=? c) && (c <=? 57343)) eqn:S; [discriminate|].
  apply between_false in S.
  destruct (N.ltb_spec c 65536) as [L3|L3]; injection H as <-.
  { destruct (divmod c 64 ltac:(discriminate)) as (q & m & Eq & -> & E & M).
    replace (c / 4096) with (q / 64) by (rewrite <- Eq, N.div_div by discriminate; reflexivity).
    rewrite Eq. destruct (divmod q 64 ltac:(discriminate)) as (q2 & m2 & -> & -> & E2 & M2).
    cbn [app utf8_decode].
    destruct (N.ltb_spec (224 + q2) 128); [lia|].
    replace (between 194 223 (224 + q2)) with false by (symmetry; apply between_false; lia).
    replace (between 224 239 (224 + q2)) with true by (symmetry; apply between_iff; lia).
    replace (second_ok (224 + q2) (128 + m2)) with true.
    2:{ symmetry. unfold second_ok.
        destruct (N.eqb_spec (224 + q2) 224); [apply between_iff; lia|].
        destruct (N.eqb_spec (224 + q2) 237); [apply between_iff; lia|].
        destruct (N.eqb_spec (224 + q2) 240); [lia|].
        destruct (N.eqb_spec (224 + q2) 244); [lia|]. apply cont_iff; lia. }
    replace (cont (128 + m)) with true by (symmetry; apply cont_iff; lia).
    f_equal. lia. }
  { destruct (divmod c 64 ltac:(discriminate)) as (q & m & Eq & -> & E & M).
    replace (c / 262144) with (q / 64 / 64) by (rewrite <- Eq, !N.div_div by discriminate; reflexivity).
    replace (c / 4096) with (q / 64) by (rewrite <- Eq, N.div_div by discriminate; reflexivity).
    rewrite Eq. destruct (divmod q 64 ltac:(discriminate)) as (q2 & m2 & -> & -> & E2 & M2).
    destruct (divmod q2 64 ltac:(discriminate)) as (q3 & m3 & -> & -> & E3 & M3).
    cbn [app utf8_decode].
    destruct (N.ltb_spec (240 + q3) 128); [lia|].
    replace (between 194 223 (240 + q3)) with false by (symmetry; apply between_false; lia).
    replace (between 224 239 (240 + q3)) with false by (symmetry; apply between_false; lia).
    replace (between 240 244 (240 + q3)) with true by (symmetry; apply between_iff; lia).
    replace (second_ok (240 + q3) (128 + m3)) with true.
    2:{ symmetry. unfold second_ok.
        destruct (N.eqb_spec (240 + q3) 224); [lia|].
        destruct (N.eqb_spec (240 + q3) 237); [lia|].
        destruct (N.eqb_spec (240 + q3) 240); [apply between_iff; lia|].
        destruct (N.eqb_spec (240 + q3) 244); [apply between_iff; lia|]. apply cont_iff; lia. }
    replace (cont (128 + m2)) with true by (symmetry; apply cont_iff; lia).
    replace (cont (128 + m)) with true by (symmetry; apply cont_iff; lia).
    f_equal. lia. }
Qed.

Lemma utf8_encode1_bytes c bs : utf8_encode1 c = Some bs -> c <= 1114111 -> Forall (fun b => b < 256) bs.
Proof.
  unfold utf8_encode1. intros H B.
  assert (M : forall a, a mod 64 < 64) by (intro; apply N.mod_lt; discriminate).
  assert (D : forall a b k, b <> 0 -> a < b * k -> a / b < k) by (intros; apply N.div_lt_upper_bound; auto).
  destruct (N.ltb_spec c 128) as [L1|L1].
  { injection H as <-. repeat constructor. lia. }
  destruct (N.ltb_spec c 2048) as [L2|L2].
  { injection H as <-. pose proof (M c). pose proof (D c 64 32 ltac:(discriminate) L2). repeat constructor; lia. }
  destruct ((55296 <=? c) && (c <=? 57343)) eqn:S; [discriminate|].
  destruct (N.ltb_spec c 65536) as [L3|L3]; injection H as <-.
  - pose proof (M c). pose proof (M (c / 64)). pose proof (D c 4096 16 ltac:(discriminate) ltac:(lia)). repeat constructor; lia.
  - pose proof (M c). pose proof (M (c / 64)). pose proof (M (c / 4096)).
    pose proof (D c 262144 5 ltac:(discriminate) ltac:(lia)). repeat constructor; lia.
Qed.

Lemma utf8_encode1_scalar c : scalar c -> exists bs, utf8_encode1 c = Some bs.
Proof.
  unfold scalar, utf8_encode1. intro H.
  destruct (c <? 128); eauto. destruct (c <? 2048); eauto.
  destruct ((55296 <=? c) && (c <=? 57343)) eqn:S.
  - apply between_iff in S. lia.
  - destruct (c <? 65536); eauto.
Qed.

Lemma scalar_bound c : scalar c -> c <= 1114111.
Proof. unfold scalar. lia. Qed.

Lemma utf8_roundtrip s : Forall scalar s ->
  exists bs, utf8_encode s = Some bs /\ utf8_decode bs = s /\ Forall (fun b => b < 256) bs.
Proof.
  induction 1 as [|c s Hc Hs (bs & E & D & B)].
  - exists []. repeat split; constructor.
  - destruct (utf8_encode1_scalar c Hc) as (b1 & E1). exists (b1 ++ bs).
    cbn [utf8_encode]. rewrite E1, E. repeat split; auto.
    + rewrite (utf8_roundtrip1 c) by (auto using scalar_bound). congruence.
    + apply Forall_app. split; auto. eapply utf8_encode1_bytes; eauto using scalar_bound.
Qed.

Lemma hex_val_upper d : d < 16 -> hex_val (hex_upper d) = Some d.
Proof.
  intro H. unfold hex_upper, hex_val. destruct (N.ltb_spec d 10).
  - replace (between 48 57 (48 + d)) with true by (symmetry; apply between_iff; lia). f_equal; lia.
  - replace (between 48 57 (55 + d)) with false by (symmetry; apply between_false; lia).
    replace (between 65 70 (55 + d)) with true by (symmetry; apply between_iff; lia). f_equal; lia.
Qed.

Lemma safe_not_pct b : always_safe b || extra_safe b = true -> b <> 37.
Proof. intros H ->. discriminate. Qed.

Lemma unquote_bytes_quote1 b r : b < 256 -> unquote_bytes (quote_byte b ++ r) = b :: unquote_bytes r.
Proof.
  intro B. unfold quote_byte. destruct (always_safe b || extra_safe b) eqn:S.
  - cbn [app unquote_bytes]. destruct (N.eqb_spec b 37); auto.
    exfalso. now apply (safe_not_pct b).
  - cbn [app unquote_bytes]. change (37 =? 37) with true. cbv iota.
    destruct (divmod b 16 ltac:(discriminate)) as (q & m & -> & -> & E & M).
    rewrite !hex_val_upper by lia. f_equal. lia.
Qed.

Lemma unquote_bytes_quote bs : Forall (fun b => b < 256) bs ->
  unquote_bytes (flat_map quote_byte bs) = bs.
Proof.
  induction 1; cbn [flat_map]; auto. rewrite unquote_bytes_quote1 by auto. congruence.
Qed.

Lemma safe_ascii b : always_safe b || extra_safe b = true -> b < 128.
Proof.
  unfold always_safe, extra_safe. rewrite !orb_true_iff, !between_iff, !N.eqb_eq. lia.
Qed.

Lemma hex_upper_ascii d : d < 16 -> hex_upper d < 128.
Proof. unfold hex_upper. destruct (N.ltb_spec d 10); lia. Qed.

Lemma quote_ascii bs : Forall (fun b => b < 256) bs -> Forall (fun c => c < 128) (flat_map quote_byte bs).
Proof.
  induction 1 as [|b bs Hb Hbs IH]; cbn [flat_map]; [constructor|].
  apply Forall_app. split; auto. unfold quote_byte.
  destruct (always_safe b || extra_safe b) eqn:S.
  - repeat constructor. now apply safe_ascii.
  - destruct (divmod b 16 ltac:(discriminate)) as (q & m & -> & -> & E & M).
    repeat constructor; try lia; apply hex_upper_ascii; lia.
Qed.

Lemma unquote_runs_ascii run s : Forall (fun c => c < 128) s ->
  unquote_runs run s = utf8_decode (unquote_bytes (rev run ++ s)).
Proof.
  intro H. revert run. induction H as [|c s Hc Hs IH]; intro run; cbn [unquote_runs].
  - now rewrite app_nil_r.
  - destruct (N.ltb_spec c 128); [|lia]. rewrite IH. cbn [rev]. now rewrite <- app_assoc.
Qed.

Lemma unquote_nopct s : existsb (N.eqb 37) s = false -> unquote_bytes s = s.
Proof.
  induction s as [|c s IH]; cbn [existsb unquote_bytes]; auto.
  rewrite orb_false_iff. intros [H1 H2]. rewrite N.eqb_sym, H1. now rewrite IH.
Qed.

Lemma utf8_decode_ascii s : Forall (fun c => c < 128) s -> utf8_decode s = s.
Proof.
  induction 1; cbn [utf8_decode]; auto. destruct (N.ltb_spec x 128); [|lia]. congruence.
Qed.

Lemma unquote_ascii s : Forall (fun c => c < 128) s -> unquote s = utf8_decode (unquote_bytes s).
Proof.
  intro H. unfold unquote. destruct (existsb (N.eqb 37) s) eqn:E.
  - now rewrite unquote_runs_ascii.
  - rewrite unquote_nopct, utf8_decode_ascii; auto.
Qed.

Lemma unquote_quote s : Forall scalar s -> exists q, quote s = Ok q /\ unquote q = s.
Proof.
  intro H. destruct (utf8_roundtrip s H) as (bs & E & D & B).
  exists (flat_map quote_byte bs). unfold quote. rewrite E. split; auto.
  rewrite unquote_ascii by now apply quote_ascii. now rewrite unquote_bytes_quote.
Qed.

Lemma scalar_escape k : Forall scalar k -> Forall scalar (escape k).
Proof.
  induction 1 as [|c k Hc Hk IH]; [constructor|]. rewrite escape_cons. apply Forall_app. split; auto.
  destruct (c =? 126); [|destruct (c =? 47)];
    repeat (apply Forall_cons || apply Forall_nil); auto; unfold scalar; lia.
Qed.

Lemma scalar_pointer_str p : Forall (Forall scalar) p -> Forall scalar (pointer_str p).
Proof.
  induction 1 as [|k p Hk Hp IH]; [constructor|]. unfold pointer_str. cbn [map List.concat app].
  constructor; [unfold scalar; lia|]. apply Forall_app. split; auto using scalar_escape.
Qed.

Lemma fragment_roundtrip p : Forall (Forall scalar) p ->
  exists f, uri_fragment p = Ok f /\ parse_uri_fragment f = Ok p.
Proof.
  intro H. destruct (unquote_quote (pointer_str p) (scalar_pointer_str p H)) as (q & E & U).
  exists q. split; auto. unfold parse_uri_fragment. rewrite U. apply parse_str.
Qed.

Lemma hexdig_upper d : d < 16 -> hexdig (hex_upper d).
Proof. unfold hex_upper, hexdig, dec_digit. intro. destruct (N.ltb_spec d 10); lia. Qed.

Lemma safe_fragment b : always_safe b || extra_safe b = true ->
  unreserved b \/ sub_delim b \/ In b [58; 64; 47; 63].
Proof.
  unfold always_safe, extra_safe. rewrite !orb_true_iff, !between_iff, !N.eqb_eq.
  unfold unreserved, sub_delim, alpha, dec_digit. simpl. lia.
Qed.

Lemma rfc_fragment_app s t : rfc_fragment s -> rfc_fragment t -> rfc_fragment (s ++ t).
Proof. induction 1; intro; cbn [app]; auto; [apply rf_char|apply rf_pct]; auto. Qed.

Lemma quote_fragment bs : Forall (fun b => b < 256) bs -> rfc_fragment (flat_map quote_byte bs).
Proof.
  induction 1 as [|b bs Hb Hbs IH]; cbn [flat_map]; [constructor|].
  apply rfc_fragment_app; auto. unfold quote_byte.
  destruct (always_safe b || extra_safe b) eqn:S.
  - apply rf_char; [now apply safe_fragment|constructor].
  - destruct (divmod b 16 ltac:(discriminate)) as (q & m & -> & -> & E & M).
    apply rf_pct; try apply hexdig_upper; try lia. constructor.
Qed.

Lemma utf8_encode_bytes s bs : utf8_encode s = Some bs -> valid_str s -> Forall (fun b => b < 256) bs.
Proof.
  revert bs. induction s as [|c s IH]; cbn [utf8_encode]; intros bs H V.
  - injection H as <-. constructor.
  - destruct (utf8_encode1 c) eqn:E; [|discriminate]. destruct (utf8_encode s); [|discriminate].
    injection H as <-. inversion V; subst. apply Forall_app. split; auto.
    eapply utf8_encode1_bytes; eauto.
Qed.

Lemma valid_escape k : valid_str k -> valid_str (escape k).
Proof.
  unfold valid_str. induction 1 as [|c k Hc Hk IH]; [constructor|]. rewrite escape_cons. apply Forall_app. split; auto.
  destruct (c =? 126); [repeat constructor; lia|].
  destruct (c =? 47); [repeat constructor; lia|]. repeat constructor; auto.
Qed.

Lemma valid_pointer_str p : Forall valid_str p -> valid_str (pointer_str p).
Proof.
  induction 1 as [|k p Hk Hp IH]; [constructor|]. unfold pointer_str. cbn [map List.concat app].
  constructor; [lia|]. apply Forall_app. split; auto. now apply valid_escape.
Qed.

Lemma fragment_syntax p f : Forall valid_str p -> uri_fragment p = Ok f -> rfc_fragment f.
Proof.
  unfold uri_fragment, quote. intros V H. destruct (utf8_encode (pointer_str p)) eqn:E; [|discriminate].
  injection H as <-. apply quote_fragment. eapply utf8_encode_bytes; eauto. now apply valid_pointer_str.
Qed.

Lemma fragment_total p : (exists f, uri_fragment p = Ok f) \/ uri_fragment p = Exn EUnicode.
Proof. unfold uri_fragment, quote. destruct (utf8_encode (pointer_str p)); eauto. Qed.

(** ** Decoding any spelling. *)
Lemma dm a b d : b < d -> (d * a + b) / d = a /\ (d * a + b) mod d = b.
Proof. intro H. split; [symmetry; now apply (N.div_unique _ _ _ b)|symmetry; now apply (N.mod_unique _ _ a)]. Qed.

Lemma utf8_char_encode c bs : utf8_char c bs -> utf8_encode1 c = Some bs /\ c <= 1114111.
Proof.
  destruct 1 as [c H|a b Hb L U|a b c Hb Hc L U S|a b c d Hb Hc Hd L U]; (split; [|lia]); unfold utf8_encode1.
  - destruct (N.ltb_spec c 128); [reflexivity|lia].
  - destruct (N.ltb_spec (64 * a + b) 128); [lia|]. destruct (N.ltb_spec (64 * a + b) 2048); [|lia].
    destruct (dm a b 64 Hb) as [-> ->]. reflexivity.
  - destruct (N.ltb_spec (4096 * a + 64 * b + c) 128); [lia|]. destruct (N.ltb_spec (4096 * a + 64 * b + c) 2048); [lia|].
    replace ((55296 <=? 4096 * a + 64 * b + c) && (4096 * a + 64 * b + c <=? 57343)) with false.
    2: { symmetry. apply between_false. unfold scalar in S. lia. }
    destruct (N.ltb_spec (4096 * a + 64 * b + c) 65536); [|lia].
    replace (4096 * a + 64 * b + c) with (64 * (64 * a + b) + c) by lia.
    change 4096 with (64 * 64). rewrite <- N.div_div by lia.
    destruct (dm (64 * a + b) c 64 Hc) as [-> ->]. destruct (dm a b 64 Hb) as [-> ->]. reflexivity.
  - set (v := 262144 * a + 4096 * b + 64 * c + d) in *.
    destruct (N.ltb_spec v 128); [lia|]. destruct (N.ltb_spec v 2048); [lia|].
    replace ((55296 <=? v) && (v <=? 57343)) with false by (symmetry; apply between_false; lia).
    destruct (N.ltb_spec v 65536); [lia|].
    replace v with (64 * (64 * (64 * a + b) + c) + d) by (subst v; lia).
    change 262144 with (64 * 64 * 64). change 4096 with (64 * 64). rewrite <- !N.div_div by lia.
    destruct (dm (64 * (64 * a + b) + c) d 64 Hd) as [-> ->].
    destruct (dm (64 * a + b) c 64 Hc) as [-> ->]. destruct (dm a b 64 Hb) as [-> ->]. reflexivity.
Qed.

Lemma utf8_text_decode s bs : utf8_text s bs -> utf8_decode bs = s.
Proof.
  induction 1 as [|c b s bs H _ IH]; [reflexivity|]. destruct (utf8_char_encode c b H) as [E B].
  rewrite (utf8_roundtrip1 c) by assumption. now rewrite IH.
Qed.

Lemma hex_value_val c d : hex_value c d -> hex_val c = Some d /\ c < 128.
Proof.
  unfold hex_value, hex_val. intros [(A & B & ->)|[(A & B & ->)|(A & B & ->)]]; (split; [|lia]).
  - replace (between 48 57 c) with true by (symmetry; apply between_iff; lia). reflexivity.
  - replace (between 48 57 c) with false by (symmetry; apply between_false; lia).
    replace (between 65 70 c) with true by (symmetry; apply between_iff; lia). reflexivity.
  - replace (between 48 57 c) with false by (symmetry; apply between_false; lia).
    replace (between 65 70 c) with false by (symmetry; apply between_false; lia).
    replace (between 97 102 c) with true by (symmetry; apply between_iff; lia). reflexivity.
Qed.

Lemma octets_unquote f bs : octets f bs -> unquote_bytes f = bs /\ Forall (fun c => c < 128) f.
Proof.
  induction 1 as [|c s bs A N _ [IH1 IH2]|a b x y s bs Ha Hb _ [IH1 IH2]]; [now split| |].
  - split; [|now constructor]. cbn [unquote_bytes]. destruct (N.eqb_spec c 37); [contradiction|]. now rewrite IH1.
  - destruct (hex_value_val a x Ha) as [Va La], (hex_value_val b y Hb) as [Vb Lb].
    split; [|repeat (constructor; [lia|]); assumption].
    cbn [unquote_bytes]. change (37 =? 37) with true. cbv iota. now rewrite Va, Vb, IH1.
Qed.

Lemma parse_fragment_spelling f bs s : octets f bs -> utf8_text s bs -> parse_uri_fragment f = parse_pointer s.
Proof.
  intros Hf Hs. destruct (octets_unquote f bs Hf) as [U A]. unfold parse_uri_fragment.
  rewrite unquote_ascii by exact A. now rewrite U, (utf8_text_decode s bs).
Qed.
