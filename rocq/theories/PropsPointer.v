(** Properties C01-C05 and C07-C09: JSON Pointer. *)
From Verif Require Import PointerFacts.
Open Scope N_scope.

(** ** C01.  Keys to text to keys, for every list of keys. *)
Theorem C01_keys_text_keys : forall ks : list pystr,
  parse_pointer (pointer_str ks) = Ok ks.
Proof. exact parse_str. Qed.
Print Assumptions C01_keys_text_keys.

Theorem C01_str_injective : forall ks ks' : list pystr,
  pointer_str ks = pointer_str ks' -> ks = ks'.
Proof.
  exact (fun ks ks' E => f_equal (fun r => match r with Ok p => p | _ => [] end)
    (eq_trans (eq_trans (eq_sym (parse_str ks)) (f_equal parse_pointer E)) (parse_str ks'))).
Qed.
Print Assumptions C01_str_injective.

Example C01_case : (* keys with both reserved characters, and an empty key *)
  pointer_str [lit "a/b"; lit ""; lit "~1"] = lit "/a~1b//~01" /\
  parse_pointer (lit "/a~1b//~01") = Ok [lit "a/b"; lit ""; lit "~1"].
Proof. split; reflexivity. Qed.

(** ** C02.  Text to keys to text, for every accepted text. *)
Theorem C02_text_keys_text : forall s ks,
  parse_pointer s = Ok ks -> pointer_str ks = s.
Proof. exact str_parse. Qed.
Print Assumptions C02_text_keys_text.

Example C02_case : exists ks, parse_pointer (lit "/~0~1/0") = Ok ks /\ length ks = 2%nat.
Proof. eexists; split; reflexivity. Qed.

(** ** C03.  Acceptance is the grammar; rejection is always the malformed
    error; the keys are those the RFC assigns. *)
Theorem C03_accepts_exactly_rfc6901 : forall s, valid_str s ->
  ((exists ks, parse_pointer s = Ok ks) <-> rfc_pointer s).
Proof. exact accept_iff. Qed.
Print Assumptions C03_accepts_exactly_rfc6901.

Theorem C03_only_malformed_error : forall s,
  (exists ks, parse_pointer s = Ok ks) \/ parse_pointer s = Exn EPointerMalformed.
Proof. exact reject_malformed. Qed.
Print Assumptions C03_only_malformed_error.

Theorem C03_keys_as_denoted : forall s ks, valid_str s ->
  parse_pointer s = Ok ks -> rfc_denotes s ks.
Proof. exact parse_denotes. Qed.
Print Assumptions C03_keys_as_denoted.

Example C03_case :
  valid_str (lit "/a~") /\ parse_pointer (lit "/a~") = Exn EPointerMalformed
  /\ parse_pointer (lit "a") = Exn EPointerMalformed
  /\ valid_str (lit "/x/~1") /\ parse_pointer (lit "/x/~1") = Ok [lit "x"; lit "/"].
Proof. repeat split; try reflexivity; repeat constructor; discriminate. Qed.

(** ** C04.  Concatenation and slicing. *)
Theorem C04_constructor_concatenates : forall vs ws,
  mk_pointer (vs ++ ws) = let* p := mk_pointer vs in let* q := mk_pointer ws in Ok (p ++ q).
Proof. exact mk_pointer_app. Qed.
Print Assumptions C04_constructor_concatenates.

Theorem C04_div_appends : forall (p : pointer) k ks,
  pointer_div_key p k = Ok (p ++ [k]) /\ pointer_div_keys p ks = Ok (p ++ ks).
Proof. exact (fun p k ks => conj eq_refl eq_refl). Qed.
Print Assumptions C04_div_appends.

Theorem C04_div_assoc : forall p q r,
  (let* pq := pointer_div_keys p q in pointer_div_keys pq r)
  = (let* qr := pointer_div_keys q r in pointer_div_keys p qr).
Proof. exact (fun p q r => f_equal Ok (eq_sym (app_assoc p q r))). Qed.
Print Assumptions C04_div_assoc.

Theorem C04_slice_splits : forall p i,
  pointer_div_keys (pointer_slice p None (Some i)) (pointer_slice p (Some i) None) = Ok p.
Proof. exact slice_split. Qed.
Print Assumptions C04_slice_splits.

(** A slice with non-negative bounds contains exactly the keys at the
    positions i, i+1, ..., j-1 that exist. *)
Theorem C04_slice_items : forall p i j n, (0 <= i)%Z -> (0 <= j)%Z ->
  nth_error (pointer_slice p (Some i) (Some j)) n =
    if (Z.of_nat n + i <? j)%Z then nth_error p (Z.to_nat i + n) else None.
Proof. exact slice_nat_nth. Qed.
Print Assumptions C04_slice_items.

Theorem C04_length : forall p q pq, pointer_div_keys p q = Ok pq -> length pq = (length p + length q)%nat.
Proof.
  exact (fun p q pq E => match E in _ = r return match r with Ok x => length x = (length p + length q)%nat | _ => True end
    with eq_refl => app_length p q end).
Qed.
Print Assumptions C04_length.

Example C04_case :
  pointer_slice [lit "a"; lit "b"; lit "c"] None (Some (-1)%Z) = [lit "a"; lit "b"] /\
  pointer_slice [lit "a"; lit "b"; lit "c"] (Some 1%Z) (Some 9%Z) = [lit "b"; lit "c"].
Proof. split; reflexivity. Qed.

(** ** C05.  The prefix order. *)
Theorem C05_le_is_prefix : forall p q, pointer_leb p q = true <-> exists r, q = p ++ r.
Proof. exact pointer_leb_prefix. Qed.
Print Assumptions C05_le_is_prefix.

Theorem C05_lt_is_proper_prefix : forall p q,
  pointer_ltb p q = true <-> (pointer_leb p q = true /\ pointer_eqb p q = false).
Proof.
  intros p q. rewrite pointer_ltb_proper, pointer_leb_prefix. unfold is_prefix, is_proper_prefix, pointer_eqb.
  split.
  - intros (k & r & ->). split; [eauto|]. destruct (strs_eqb_spec p (p ++ k :: r)) as [E|]; auto.
    exfalso. apply (f_equal (@length _)) in E. rewrite app_length in E. simpl in E. lia.
  - intros [(r & ->) H]. destruct r as [|k r]; [|eauto].
    rewrite app_nil_r, strs_eqb_refl in H. discriminate.
Qed.
Print Assumptions C05_lt_is_proper_prefix.

Theorem C05_partial_order :
  (forall p, pointer_leb p p = true) /\
  (forall p q, pointer_leb p q = true -> pointer_leb q p = true -> p = q) /\
  (forall p q r, pointer_leb p q = true -> pointer_leb q r = true -> pointer_leb p r = true).
Proof.
  repeat split; intros *; rewrite !pointer_leb_prefix.
  - exists []. now rewrite app_nil_r.
  - intros (r & ->) (r' & E). rewrite <- app_assoc in E.
    rewrite <- (app_nil_r p) in E at 1. apply app_inv_head in E. symmetry in E.
    apply app_eq_nil in E as [-> _]. now rewrite app_nil_r.
  - intros (a & ->) (b & ->). exists (a ++ b). now rewrite app_assoc.
Qed.
Print Assumptions C05_partial_order.

Theorem C05_eq_is_key_equality : forall p q, pointer_eqb p q = true <-> p = q.
Proof. exact strs_eqb_eq. Qed.
Print Assumptions C05_eq_is_key_equality.

Example C05_case : pointer_ltb [lit "a"] [lit "a"; lit "b"] = true /\ pointer_leb [lit "a"] [lit "ab"] = false.
Proof. split; reflexivity. Qed.

(** ** C07.  Evaluation on plain documents. *)
Theorem C07_eval_is_rfc6901 : forall p d v, jwf d = true ->
  (eval_plain p d = Ok v <-> refers d p v).
Proof. exact eval_plain_refers. Qed.
Print Assumptions C07_eval_is_rfc6901.

Theorem C07_eval_error : forall p d, jwf d = true ->
  (~ exists v, refers d p v) -> eval_plain p d = Exn EPointerReference.
Proof.
  intros p d W H. destruct (eval_plain_error p d W) as [(v & E)|E]; auto.
  exfalso. apply H. exists v. now apply eval_plain_refers.
Qed.
Print Assumptions C07_eval_error.

Example C07_case :
  let d := JObj [(lit "a", JArr [JNull; JBool true]); (lit "", JNum (NInt 1))] in
  jwf d = true /\ eval_plain [lit "a"; lit "1"] d = Ok (JBool true)
  /\ eval_plain [lit "a"; lit "01"] d = Exn EPointerReference
  /\ eval_plain [lit "a"; lit "-"] d = Exn EPointerReference
  /\ eval_plain [lit ""] d = Ok (JNum (NInt 1)).
Proof. repeat split; reflexivity. Qed.

(** ** C08.  Evaluation composes, for plain documents and for JSON nodes. *)
Theorem C08_eval_composes : forall p q d v,
  eval_plain (p ++ q) d = Ok v <-> exists u, eval_plain p d = Ok u /\ eval_plain q u = Ok v.
Proof.
  intros. rewrite eval_plain_app. split.
  - destruct (eval_plain p d); simpl; try discriminate. eauto.
  - intros (u & -> & H). exact H.
Qed.
Print Assumptions C08_eval_composes.

Theorem C08_eval_node_composes : forall p q d v,
  eval_node (p ++ q) d = Ok v <-> exists u, eval_node p d = Ok u /\ eval_node q u = Ok v.
Proof.
  intros. rewrite eval_node_app. split.
  - destruct (eval_node p d); simpl; try discriminate. eauto.
  - intros (u & -> & H). exact H.
Qed.
Print Assumptions C08_eval_node_composes.

Example C08_case :
  eval_plain ([lit "a"] ++ [lit "0"]) (JObj [(lit "a", JArr [JNull])]) = Ok JNull.
Proof. reflexivity. Qed.

(** ** C09.  Evaluation on JSON nodes against plain values.
    The full claim is [forall p d, jwf d = true -> eval_node p d = eval_plain p d];
    it is false of the code. *)
Theorem C09_negative_index_resolves_refuted : exists p d v,
  jwf d = true /\ (~ exists u, refers d p u) /\ eval_node p d = Ok v.
Proof.
  exists [lit "-1"], (JArr [JNull; JBool true]), (JBool true).
  split; [reflexivity|]. split; [|reflexivity].
  intros (u & H). apply eval_plain_refers in H; [|reflexivity]. discriminate.
Qed.
Print Assumptions C09_negative_index_resolves_refuted.

Theorem C09_value_error_escapes_refuted : exists p d,
  jwf d = true /\ eval_node p d = Exn EValue.
Proof. exists [lit "foo"], (JArr []). split; reflexivity. Qed.
Print Assumptions C09_value_error_escapes_refuted.

(** What does hold: every success on the plain value is the same success on
    the node, and the two agree completely whenever each key applied to an
    array is an RFC 6901 index. Missing from the full claim: array steps with
    other keys. *)
Theorem C09_node_extends_plain_partial : forall p d v,
  eval_plain p d = Ok v -> eval_node p d = Ok v.
Proof. exact eval_plain_node. Qed.
Print Assumptions C09_node_extends_plain_partial.

Theorem C09_agree_on_index_keys_partial : forall p d,
  (forall ks k r l, p = ks ++ k :: r -> refers d ks (JArr l) -> rfc_index_text k) ->
  jwf d = true ->
  eval_node p d = eval_plain p d.
Proof.
  intros p. induction p as [|k p IH]; intros d H W; [reflexivity|].
  assert (K : forall v, child d k v -> jwf v = true -> eval_node p v = eval_plain p v).
  { intros v C Wv. apply IH; auto. intros ks k' r l -> R.
    apply (H (k :: ks) k' r l eq_refl). econstructor; eauto. }
  destruct d; auto.
  - assert (R : rfc_index_text k) by (apply (H [] k p l eq_refl); constructor).
    cbn [eval_node eval_plain]. rewrite (proj2 (index_match_rfc k) R), (py_int_index k R).
    destruct (norm_index (length l) (Z.of_N (digits_value k))) eqn:E; auto.
    destruct (nth_error l n) eqn:E2; auto. apply K.
    + constructor; auto. rewrite <- nth_norm, E. exact E2.
    + eapply jwf_nth; eauto.
  - cbn [eval_node eval_plain]. destruct (dget k m) eqn:E; auto. apply K.
    + constructor. now apply dget_In.
    + eapply jwf_dget; eauto.
Qed.
Print Assumptions C09_agree_on_index_keys_partial.

Example C09_case :
  eval_node [lit "a"; lit "1"] (JObj [(lit "a", JArr [JNull; JBool true])]) = Ok (JBool true)
  /\ (forall ks k r l, [lit "a"; lit "1"] = ks ++ k :: r ->
        refers (JObj [(lit "a", JArr [JNull; JBool true])]) ks (JArr l) -> rfc_index_text k).
Proof.
  split; [reflexivity|]. intros ks k r l E R.
  destruct ks as [|k0 [|k1 ks]].
  - inversion R.
  - injection E as _ <- _. right. exists 49, []. repeat split; try lia. constructor.
  - destruct ks; discriminate.
Qed.
