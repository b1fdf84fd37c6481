(** C38, C39, C41-C43, C53: properties of evaluation that need no condition on
    the schemas around. *)
From Coq Require Import String QArith Qabs Qpower List.
From Verif Require Import SchemaLaws SchemaAssert SchemaCases.
From Verif Require Text SchemaAnnot.
Import ListNotations.
Open Scope string_scope.
Open Scope list_scope.
Open Scope nat_scope.

(** ** C38 *)

(** The value of a decimal number with coefficient and exponent. *)
Definition decimal (a : Z * Z) : Q := (inject_Z (fst a) * Qpower (inject_Z 10) (snd a))%Q.
(** The decimal that the code takes a number to be; for a float this is what
    repr prints, not its exact value. *)
Definition written (W : world) (n : num) (a : Z * Z) : Prop :=
  match n with
  | NInt z => a = (z, 0%Z)
  | NDyad m e => a = w_repr W m e
  | _ => False
  end.

Lemma Qpower10_nonneg e : (0 <= e)%Z -> (Qpower (inject_Z 10) e == inject_Z (10 ^ e))%Q.
Proof.
  intro H. rewrite <- (Z2Nat.id e H). generalize (Z.to_nat e). clear. intro n. induction n as [|n IH]; [reflexivity|].
  rewrite Nat2Z.inj_succ. unfold Z.succ. rewrite Qpower_plus by discriminate. rewrite IH.
  rewrite Z.pow_add_r by lia. rewrite inject_Z_mult. reflexivity.
Qed.
Lemma decimal_scale c e e0 : (e0 <= e)%Z -> (decimal (c, e) == inject_Z (c * 10 ^ (e - e0)) * Qpower (inject_Z 10) e0)%Q.
Proof.
  intro H. unfold decimal. cbn [fst snd]. rewrite inject_Z_mult, <- Qpower10_nonneg by lia.
  rewrite <- Qmult_assoc, <- Qpower_plus by discriminate. replace (e - e0 + e0)%Z with e by lia. reflexivity.
Qed.

Lemma dec_multiple_spec a b : ~ (decimal b == 0)%Q -> (Qabs (decimal a) < inject_Z (10 ^ 28) * Qabs (decimal b))%Q ->
  dec_multiple a b = true <-> exists z, (decimal a == inject_Z z * decimal b)%Q.
Proof.
  destruct a as [ca ea], b as [cb eb]. intros Nb Lt. unfold dec_multiple. cbn [fst snd]. set (e := Z.min ea eb).
  assert (La : (e <= ea)%Z) by (unfold e; lia). assert (Lb : (e <= eb)%Z) by (unfold e; lia).
  pose proof (decimal_scale ca ea e La) as Da. pose proof (decimal_scale cb eb e Lb) as Db.
  assert (Pa : (0 < 10 ^ (ea - e))%Z) by (apply Z.pow_pos_nonneg; lia).
  assert (Pb : (0 < 10 ^ (eb - e))%Z) by (apply Z.pow_pos_nonneg; lia).
  assert (P10 : (0 < Qpower (inject_Z 10) e)%Q) by (apply Qpower_0_lt; reflexivity).
  set (t := Qpower (inject_Z 10) e) in *. clearbody t e.
  replace (Z.abs ca * 10 ^ (ea - e))%Z with (Z.abs (ca * 10 ^ (ea - e))) by (rewrite Z.abs_mul; f_equal; lia).
  replace (Z.abs cb * 10 ^ (eb - e))%Z with (Z.abs (cb * 10 ^ (eb - e))) by (rewrite Z.abs_mul; f_equal; lia).
  set (x := (ca * 10 ^ (ea - e))%Z) in *. set (y := (cb * 10 ^ (eb - e))%Z) in *. clearbody x y.
  assert (Ny : y <> 0%Z). { intros ->. apply Nb. rewrite Db. ring. }
  assert (Lxy : (Z.abs x < 10 ^ 28 * Z.abs y)%Z).
  { rewrite Da, Db in Lt. rewrite !Qabs_Qmult in Lt. rewrite (Qabs_pos t) in Lt by now apply Qlt_le_weak.
    rewrite Qmult_assoc in Lt. apply Qmult_lt_r in Lt; [|exact P10].
    change (Qabs (inject_Z x)) with (inject_Z (Z.abs x)) in Lt. change (Qabs (inject_Z y)) with (inject_Z (Z.abs y)) in Lt.
    rewrite <- inject_Z_mult in Lt. now rewrite <- Zlt_Qlt in Lt. }
  assert (Hy : (Z.abs y =? 0)%Z = false) by (apply Z.eqb_neq; lia). rewrite Hy. cbn [negb andb].
  assert (Hq : (Z.abs x / Z.abs y <? 10 ^ 28)%Z = true). { apply Z.ltb_lt, Z.div_lt_upper_bound; lia. }
  rewrite Hq. cbn [andb]. rewrite Z.eqb_eq. rewrite Z.mod_divide by lia. rewrite Z.divide_abs_l, Z.divide_abs_r. split.
  - intros [z Hz]. exists z. rewrite Da, Db, Hz, inject_Z_mult. ring.
  - intros [z Hz]. exists z. rewrite Da, Db, Qmult_assoc, <- inject_Z_mult in Hz. apply Qmult_inj_r in Hz; [|intro X; rewrite X in P10; discriminate P10].
    exact (proj1 (inject_Z_injective _ _) Hz).
Qed.

(** Missing from C38: quotients of 10^28 and more.  For integers this is
    divisibility of integers, for floats that of the decimals printed for
    them. *)
Theorem C38_divides_partial : forall W ev k i anc parent n n' x m a b,
  i_val i = JNum x -> kw_json k = KJ (JNum m) -> written W x a -> written W m b ->
  ~ (decimal b == 0)%Q -> (Qabs (decimal a) < inject_Z (10 ^ 28) * Qabs (decimal b))%Q ->
  r_valid n = true -> eval_std W ev k KMultipleOf i anc parent n = Ok n' ->
  (r_valid n' = true <-> exists z, (decimal a == inject_Z z * decimal b)%Q).
Proof.
  intros W ev k i anc parent n n' x m a b Hx Hm Ha Hb Nb Lt V E. rewrite <- (dec_multiple_spec a b Nb Lt).
  cbn [eval_std] in E. unfold e_multipleOf, inst_num in E. rewrite Hx, Hm in E. apply tell_ok in E. destruct E as [msg ->].
  replace (is_multiple W x m) with (dec_multiple a b).
  - unfold check. destruct (dec_multiple a b); cbn [fail r_valid]; [rewrite V; split; reflexivity|split; discriminate].
  - clear - Ha Hb. unfold is_multiple, dec_of. destruct x, m; cbn [written] in Ha, Hb; try contradiction; subst a b; try reflexivity; destruct (w_repr W _ _); reflexivity.
Qed.
Print Assumptions C38_divides_partial.
Theorem C38_integers_partial : forall W ev k i anc parent n n' x m,
  i_val i = JNum (NInt x) -> kw_json k = KJ (JNum (NInt m)) -> (0 < m)%Z -> (Z.abs x < 10 ^ 28 * m)%Z ->
  r_valid n = true -> eval_std W ev k KMultipleOf i anc parent n = Ok n' ->
  (r_valid n' = true <-> (m | x)%Z).
Proof.
  intros W ev k i anc parent n n' x m Hx Hm Pm Lt V E.
  assert (D : forall z, (decimal (z, 0%Z) == inject_Z z)%Q) by (intro z; unfold decimal; cbn [fst snd Qpower]; ring).
  rewrite (C38_divides_partial W ev k i anc parent n n' (NInt x) (NInt m) (x, 0%Z) (m, 0%Z)); auto; try reflexivity.
  - split.
    + intros [z Hz]. exists z. rewrite !D, <- inject_Z_mult in Hz. exact (proj1 (inject_Z_injective _ _) Hz).
    + intros [z Hz]. exists z. now rewrite !D, <- inject_Z_mult, Hz.
  - rewrite D. change 0%Q with (inject_Z 0). rewrite inject_Z_injective. lia.
  - rewrite !D. change (Qabs (inject_Z x)) with (inject_Z (Z.abs x)). change (Qabs (inject_Z m)) with (inject_Z (Z.abs m)).
    rewrite <- inject_Z_mult, <- Zlt_Qlt. rewrite (Z.abs_eq m) by lia. exact Lt.
Qed.
Print Assumptions C38_integers_partial.
Definition exact_repr (m e : Z) : Z * Z :=
  if (e =? -2)%Z then (m * 25, -2)%Z else if (e =? -1)%Z then (m * 5, -1)%Z else (m * 2 ^ e, 0)%Z.
Definition with_repr (W : world) (repr : Z -> Z -> Z * Z) : world :=
  mkWorld (w_schema W) (w_base W) (w_anchor W) (w_search W) repr (w_format W) (w_uri W).
Definition multiple_of (m x : num) : option bool :=
  let n := new_root 0 (root JNull) in
  valid_of (eval_std (with_repr (small []) exact_repr) (fun _ _ _ n => Ok n)
              (snd (kw_in dialect_2020_12 "multipleOf" (KJ (JNum m)))) KMultipleOf (root (JNum x)) [] n n).
(** 7 and 2; -21 and 7; 0.75 and 0.25; 0.75 and 0.5. *)
Example C38_case :
  multiple_of (NInt 2) (NInt 7) = Some false /\ multiple_of (NInt 7) (NInt (-21)) = Some true
  /\ multiple_of (NDyad 1 (-2)) (NDyad 3 (-2)) = Some true /\ multiple_of (NDyad 1 (-1)) (NDyad 3 (-2)) = Some false
  /\ (Z.abs (-21) < 10 ^ 28 * 7)%Z.
Proof. vm_compute. auto 6. Qed.

(** Exactly: the keyword passes when the divisor is not zero and the quotient is
    an integer of at most 28 digits. *)
Lemma dec_multiple_exact a b :
  dec_multiple a b = true <-> ~ (decimal b == 0)%Q /\ exists z, (decimal a == inject_Z z * decimal b)%Q /\ (Z.abs z < 10 ^ 28)%Z.
Proof.
  destruct a as [ca ea], b as [cb eb]. unfold dec_multiple. cbn [fst snd]. set (e := Z.min ea eb).
  assert (La : (e <= ea)%Z) by (unfold e; lia). assert (Lb : (e <= eb)%Z) by (unfold e; lia).
  pose proof (decimal_scale ca ea e La) as Da. pose proof (decimal_scale cb eb e Lb) as Db.
  assert (Pa : (0 < 10 ^ (ea - e))%Z) by (apply Z.pow_pos_nonneg; lia).
  assert (Pb : (0 < 10 ^ (eb - e))%Z) by (apply Z.pow_pos_nonneg; lia).
  assert (P10 : (0 < Qpower (inject_Z 10) e)%Q) by (apply Qpower_0_lt; reflexivity).
  set (t := Qpower (inject_Z 10) e) in *. clearbody t e.
  replace (Z.abs ca * 10 ^ (ea - e))%Z with (Z.abs (ca * 10 ^ (ea - e))) by (rewrite Z.abs_mul; f_equal; lia).
  replace (Z.abs cb * 10 ^ (eb - e))%Z with (Z.abs (cb * 10 ^ (eb - e))) by (rewrite Z.abs_mul; f_equal; lia).
  set (x := (ca * 10 ^ (ea - e))%Z) in *. set (y := (cb * 10 ^ (eb - e))%Z) in *. clearbody x y.
  assert (Nt : ~ (t == 0)%Q) by (intro X; rewrite X in P10; discriminate P10).
  assert (Y0 : (decimal (cb, eb) == 0)%Q <-> y = 0%Z).
  { rewrite Db. split; [|intros ->; ring]. intro X. apply Qmult_integral in X. destruct X as [X|X]; [|contradiction].
    change 0%Q with (inject_Z 0) in X. exact (proj1 (inject_Z_injective _ _) X). }
  assert (M : forall z, (decimal (ca, ea) == inject_Z z * decimal (cb, eb))%Q <-> x = (z * y)%Z).
  { intro z. rewrite Da, Db, Qmult_assoc, <- inject_Z_mult. split.
    - intro X. apply Qmult_inj_r in X; [|exact Nt]. exact (proj1 (inject_Z_injective _ _) X).
    - intros ->. reflexivity. }
  rewrite !andb_true_iff, negb_true_iff, Z.eqb_neq, Z.ltb_lt, Z.eqb_eq. rewrite Y0. split.
  - intros [[Hy Hq] Hm]. split; [lia|]. rewrite Z.mod_divide in Hm by exact Hy. rewrite Z.divide_abs_l, Z.divide_abs_r in Hm. destruct Hm as [z ->].
    exists z. split; [now apply M|]. rewrite Z.abs_mul, Z.div_mul in Hq by exact Hy. exact Hq.
  - intros [Hy (z & Hz & Lz)]. apply M in Hz. subst x. rewrite Z.abs_mul. split; [split; [lia|]|].
    + rewrite Z.div_mul by lia. exact Lz.
    + apply Z.mod_mul. lia.
Qed.
Theorem C38_exact : forall W ev k i anc parent n n' x m a b,
  i_val i = JNum x -> kw_json k = KJ (JNum m) -> written W x a -> written W m b ->
  r_valid n = true -> eval_std W ev k KMultipleOf i anc parent n = Ok n' ->
  (r_valid n' = true <-> ~ (decimal b == 0)%Q /\ exists z, (decimal a == inject_Z z * decimal b)%Q /\ (Z.abs z < 10 ^ 28)%Z).
Proof.
  intros W ev k i anc parent n n' x m a b Hx Hm Ha Hb V E. rewrite <- (dec_multiple_exact a b).
  cbn [eval_std] in E. unfold e_multipleOf, inst_num in E. rewrite Hx, Hm in E. apply tell_ok in E. destruct E as [msg ->].
  replace (is_multiple W x m) with (dec_multiple a b).
  - unfold check. destruct (dec_multiple a b); cbn [fail r_valid]; [rewrite V; split; reflexivity|split; discriminate].
  - clear - Ha Hb. unfold is_multiple, dec_of. destruct x, m; cbn [written] in Ha, Hb; try contradiction; subst a b; try reflexivity; destruct (w_repr W _ _); reflexivity.
Qed.
Print Assumptions C38_exact.
Example C38_exact_case :
  multiple_of (NInt 1) (NInt (10 ^ 28 - 1)) = Some true /\ multiple_of (NInt 1) (NInt (10 ^ 28)) = Some false
  /\ multiple_of (NInt 0) (NInt 0) = Some false /\ multiple_of (NDyad 1 (-2)) (NDyad (-5) (-2)) = Some true.
Proof. vm_compute. auto 6. Qed.

(** Which of its two texts the keyword fails with. *)
Definition invalid_division (a b : Z * Z) : bool :=
  let e := Z.min (snd a) (snd b) in
  let p := (Z.abs (fst a) * 10 ^ (snd a - e))%Z in
  let q := (Z.abs (fst b) * 10 ^ (snd b - e))%Z in
  (q =? 0)%Z || negb (p / q <? 10 ^ 28)%Z.
Lemma invalid_division_spec a b :
  invalid_division a b = true <-> (decimal b == 0)%Q \/ (inject_Z (10 ^ 28) * Qabs (decimal b) <= Qabs (decimal a))%Q.
Proof.
  destruct a as [ca ea], b as [cb eb]. unfold invalid_division. cbn [fst snd]. set (e := Z.min ea eb).
  assert (La : (e <= ea)%Z) by (unfold e; lia). assert (Lb : (e <= eb)%Z) by (unfold e; lia).
  pose proof (decimal_scale ca ea e La) as Da. pose proof (decimal_scale cb eb e Lb) as Db.
  assert (Pa : (0 < 10 ^ (ea - e))%Z) by (apply Z.pow_pos_nonneg; lia).
  assert (Pb : (0 < 10 ^ (eb - e))%Z) by (apply Z.pow_pos_nonneg; lia).
  assert (P10 : (0 < Qpower (inject_Z 10) e)%Q) by (apply Qpower_0_lt; reflexivity).
  set (t := Qpower (inject_Z 10) e) in *. clearbody t e.
  replace (Z.abs ca * 10 ^ (ea - e))%Z with (Z.abs (ca * 10 ^ (ea - e))) by (rewrite Z.abs_mul; f_equal; lia).
  replace (Z.abs cb * 10 ^ (eb - e))%Z with (Z.abs (cb * 10 ^ (eb - e))) by (rewrite Z.abs_mul; f_equal; lia).
  set (x := (ca * 10 ^ (ea - e))%Z) in *. set (y := (cb * 10 ^ (eb - e))%Z) in *. clearbody x y.
  rewrite Da, Db, !Qabs_Qmult, (Qabs_pos t) by (apply Qlt_le_weak; exact P10).
  assert (Abs : forall z, (Qabs (inject_Z z) == inject_Z (Z.abs z))%Q) by (intro z; reflexivity). rewrite !Abs.
  assert (L : (inject_Z (10 ^ 28) * (inject_Z (Z.abs y) * t) <= inject_Z (Z.abs x) * t <-> inject_Z (10 ^ 28 * Z.abs y) <= inject_Z (Z.abs x))%Q).
  { rewrite inject_Z_mult, Qmult_assoc. apply Qmult_le_r. exact P10. }
  rewrite L, <- Zle_Qle. rewrite orb_true_iff, negb_true_iff, Z.eqb_eq, Z.ltb_ge.
  assert (Z0 : (inject_Z y * t == 0)%Q <-> Z.abs y = 0%Z).
  { split.
    - intro H. apply Qmult_integral in H. destruct H as [H|H]; [|exfalso; rewrite H in P10; now apply (Qlt_irrefl 0)].
      change 0%Q with (inject_Z 0) in H. rewrite inject_Z_injective in H. lia.
    - intro H. replace y with 0%Z by lia. apply Qmult_0_l. }
  rewrite Z0. destruct (Z.eq_dec (Z.abs y) 0) as [E|E]; [tauto|].
  split; (intros [H|H]; [now left|right]).
  - pose proof (Z.mul_div_le (Z.abs x) (Z.abs y) ltac:(lia)). nia.
  - apply Z.div_le_lower_bound; lia.
Qed.
Theorem C38_message : forall W ev k i anc parent n n' x m a b,
  i_val i = JNum x -> kw_json k = KJ (JNum m) -> written W x a -> written W m b ->
  r_valid n = true -> eval_std W ev k KMultipleOf i anc parent n = Ok n' -> r_valid n' = false ->
  exists ta tb, Text.json_dumps (writer W) (JNum x) = Ok ta /\ Text.json_dumps (writer W) (JNum m) = Ok tb /\
    (((decimal b == 0)%Q \/ (inject_Z (10 ^ 28) * Qabs (decimal b) <= Qabs (decimal a))%Q) /\
       r_error n' = JStr (lit "Invalid operation: " ++ ta ++ lit " % " ++ tb)
     \/ ~ (decimal b == 0)%Q /\ (Qabs (decimal a) < inject_Z (10 ^ 28) * Qabs (decimal b))%Q /\
       r_error n' = JStr (lit "The value must be a multiple of " ++ tb)).
Proof.
  intros W ev k i anc parent n n' x m a b Hx Hm Ha Hb V E V'.
  cbn [eval_std] in E. unfold e_multipleOf, inst_num in E. rewrite Hx, Hm in E.
  assert (Io : invalid_operation W x m = invalid_division a b).
  { clear - Ha Hb. unfold invalid_operation, dec_of, invalid_division. destruct x, m; cbn [written] in Ha, Hb; try contradiction; subst a b; try reflexivity; destruct (w_repr W _ _); reflexivity. }
  assert (Ta : exists t, Text.json_dumps (writer W) (JNum x) = Ok t) by (destruct x; cbn [written] in Ha; try contradiction; eexists; reflexivity).
  destruct Ta as (ta & Ta). rewrite Io in E. unfold tell in E. destruct (is_multiple W x m); [apply SchemaAnnot.ok_inj in E; subst; congruence|].
  assert (Tb : exists t, Text.json_dumps (writer W) (JNum m) = Ok t) by (destruct m; cbn [written] in Hb; try contradiction; eexists; reflexivity).
  destruct Tb as (tb & Tb). exists ta, tb. split; [exact Ta|]. split; [exact Tb|].
  destruct (invalid_division a b) eqn:D.
  - left. split; [now apply invalid_division_spec|]. rewrite Ta, Tb in E. cbn [bind] in E. apply SchemaAnnot.ok_inj in E. subst n'. reflexivity.
  - right. assert (Nd : ~ ((decimal b == 0)%Q \/ (inject_Z (10 ^ 28) * Qabs (decimal b) <= Qabs (decimal a))%Q))
      by (rewrite <- invalid_division_spec; congruence).
    split; [tauto|]. split; [apply Qnot_le_lt; tauto|]. unfold said in E. rewrite Tb in E. cbn [bind] in E. apply SchemaAnnot.ok_inj in E. subst n'.
    cbn [check fail r_error]. now rewrite app_nil_r.
Qed.
Print Assumptions C38_message.
Example C38_message_case :
  map (fun mx => match evaluate_root (small [SObj [kw_in dialect_2020_12 "multipleOf" (KJ (JNum (fst mx)))]]) 9 0 (root (JNum (snd mx))) with
                 | Ok r => map (fun kc => r_error (snd kc)) (r_children r) | _ => [] end) [(NInt 2, NInt 3); (NInt 0, NInt 3); (NInt (-1), NInt (10 ^ 28))]
  = [[text "The value must be a multiple of 2"]; [text "Invalid operation: 3 % 0"]; [text "Invalid operation: 10000000000000000000000000000 % -1"]].
Proof. vm_compute. reflexivity. Qed.

(** 10^28 is not a multiple of 1. *)
Theorem C38_refuted : exists W ev k i anc parent n n',
  i_val i = JNum (NInt (10 ^ 28)) /\ kw_json k = KJ (JNum (NInt 1)) /\ r_valid n = true
  /\ eval_std W ev k KMultipleOf i anc parent n = Ok n' /\ r_valid n' = false /\ (1 | 10 ^ 28)%Z.
Proof.
  exists (small []), (fun _ _ _ n => Ok n), (snd (kw_in dialect_2020_12 "multipleOf" (KJ (int 1)))), (root (int (10 ^ 28))), [].
  exists (new_root 0 (root JNull)), (new_root 0 (root JNull)). eexists. split; [reflexivity|]. split; [reflexivity|]. split; [reflexivity|].
  split; [vm_compute; reflexivity|]. split; [reflexivity|]. exists (10 ^ 28)%Z. reflexivity.
Qed.
Print Assumptions C38_refuted.

(** ** C39 *)

(** A keyword that does not concern the type of the instance may be left out:
    evaluation gives the very same result tree. *)
Theorem C39_ignored : forall W ev s a key k b i anc n,
  concerns (i_val i) k = false ->
  eval_keywords W ev s (a ++ (key, k) :: b) i anc n = eval_keywords W ev s (a ++ b) i anc n.
Proof.
  intros W ev s a key k b i anc n H. change (applicable k i = false) in H. revert n.
  induction a as [|[key' k'] a IH]; intro n; cbn [app eval_keywords]; [now rewrite H|].
  destruct (applicable k' i); [|apply IH].
  destruct (eval_keyword W ev k' i _ _ _) as [[q c]| |]; cbn [bind]; [apply IH|reflexivity|reflexivity].
Qed.
Print Assumptions C39_ignored.
(** A schema none of whose keywords concerns the instance accepts it, and says
    nothing about it. *)
Theorem C39_accepts : forall W fuel s kws i,
  w_schema W s = SObj kws -> (forall key k, In (key, k) kws -> concerns (i_val i) k = false) ->
  evaluate_root W (S fuel) s i = Ok (new_root s i).
Proof.
  intros W fuel s kws i Hs H. unfold evaluate_root. cbn [evaluate]. rewrite Hs.
  replace (eval_keywords W (evaluate W fuel) s kws i [] (new_root s i)) with (Ok (new_root s i)); [reflexivity|].
  clear Hs. induction kws as [|[key k] kws IH]; [reflexivity|]. cbn [eval_keywords]. change (applicable k i) with (concerns (i_val i) k).
  rewrite (H key k (or_introl eq_refl)). apply IH. intros; eapply H; right; eassumption.
Qed.
Print Assumptions C39_accepts.
(** The types that keywords concern, as the specification has them. *)
Definition concerned_types (c : stdclass) : list jtype :=
  match c with
  | KMultipleOf | KMaximum | KExclusiveMaximum | KMinimum | KExclusiveMinimum => [TNumber]
  | KMaxLength | KMinLength | KPattern | KContentMediaType | KContentEncoding | KContentSchema => [TString]
  | KMaxItems | KMinItems | KUniqueItems | KContains | KMaxContains | KMinContains | KPrefixItems | KItems | KUnevaluatedItems
  | KItems2019 | KAdditionalItems | KUnevaluatedItems2019 => [TArray]
  | KMaxProperties | KMinProperties | KRequired | KDependentRequired | KDependentSchemas | KProperties | KPatternProperties
  | KAdditionalProperties | KUnevaluatedProperties | KUnevaluatedProperties2019 | KPropertyNames => [TObject]
  | KSchema_ | KVocabulary_ | KId_ | KIdNext | KAnchor | KDynamicAnchor | KDefs | KComment_ | KRecursiveAnchor => []
  | _ => [TNull; TBoolean; TNumber; TString; TArray; TObject]
  end.
Theorem C39_types : forall k c x, kw_class k = Std c -> concerns x k = true <-> In (type_of x) (concerned_types c).
Proof.
  intros k c x H. replace (concerns x k) with (existsb (jtype_eqb (type_of x)) (concerned_types c)).
  - rewrite existsb_exists. split.
    + intros (t & Ht & E). replace (type_of x) with t; [exact Ht|]. destruct (type_of x), t; discriminate || reflexivity.
    + intro Ht. exists (type_of x). split; [exact Ht|]. now destruct (type_of x).
  - unfold concerns. rewrite H. destruct c, x; reflexivity.
Qed.
Print Assumptions C39_types.
Example C39_case :
  let k := kw_in dialect_2020_12 in
  let W := small [SObj [k "minLength" (KJ (int 3)); k "maximum" (KJ (int 3))]] in
  valid_of (evaluate_root W 2 0 (root (text "ab"))) = Some false
  /\ valid_of (evaluate_root W 2 0 (root (int 4))) = Some false
  /\ valid_of (evaluate_root W 2 0 (root (int 3))) = Some true
  /\ evaluate_root W 2 0 (root (JArr [])) = Ok (new_root 0 (root (JArr []))).
Proof. vm_compute. auto. Qed.

(** ** C41 *)

(** $ref evaluates its target into its own result node, and notes the target;
    what the node says and holds is what the target says and holds. *)
Theorem C41_node : forall W ev k t i anc parent n n', kw_ref k = Some t ->
  eval_std W ev k KRef i anc parent n = Ok n' ->
  exists m, ev t i anc n = Ok m /\ r_ref n' = Some t /\ r_valid n' = r_valid m /\ passed n' = passed m
    /\ r_children n' = r_children m
    /\ (forall at_ key, collect_annotations at_ key n' = collect_annotations at_ key m)
    /\ (forall at_ key, collect_errors at_ key n' = collect_errors at_ key m).
Proof.
  intros W ev k t i anc parent n n' Hk E. cbn [eval_std] in E. unfold e_ref in E. rewrite Hk in E.
  destruct (ev t i anc n) as [m| |]; cbn [bind] in E; try discriminate. injection E as <-. exists m.
  split; [reflexivity|]. destruct m. repeat split; reflexivity.
Qed.
Print Assumptions C41_node.

(** {"$ref": t} accepts exactly what t accepts, within the scope extended by
    the referring schema. *)
Theorem C41_verdict : forall W fuel s key k t i r,
  fit W -> jwf (i_val i) = true -> w_schema W s = SObj [(key, k)] -> kw_class k = Std KRef -> kw_ref k = Some t ->
  evaluate_root W fuel s i = Ok r -> accepts W [s] t (i_val i) (r_valid r).
Proof.
  intros W fuel s key k t i r F Hw Hs Hk Hr E. pose proof (evaluate_accepts W fuel s i r F Hw E) as A.
  assert (L : forall b, kw_accepts W [s] [(key, k)] k (i_val i) b <-> accepts W [s] t (i_val i) b)
    by (intro b; exact (law_ref W [s] [(key, k)] k t (i_val i) b Hk Hr)).
  apply L. destruct A as (n & o & J & <-). destruct n as [|n]; [discriminate|]. cbn [judge] in J. rewrite Hs in J.
  unfold judge_object in J. cbv zeta in J. cbn [map snd filter] in J.
  assert (C : concerns (i_val i) k = true) by (unfold concerns; rewrite Hk; destruct (i_val i); reflexivity).
  assert (Lt : late k = None) by (unfold late; now rewrite Hk). rewrite C in J. cbn [filter] in J. rewrite Lt in J. cbn [map flat_map] in J. rewrite Lt in J. cbn [app] in J.
  destruct (judge_keyword W (dynamic_choice W) (judge W (dynamic_choice W) n) [s] [(key, k)] (i_val i) k) as [o1|] eqn:K; [|discriminate J].
  exists n, o1. split; [exact K|]. unfold conclude in J. cbn [existsb rejects all_some] in J. rewrite orb_false_r in J.
  destruct (o_ok o1) eqn:O; cbn in J; injection J as <-; reflexivity.
Qed.
Print Assumptions C41_verdict.
(** Where references do not depend on the scope: the same as evaluating the
    target directly. *)
Theorem C41_transparent : forall W fuel fuel' s key k t i r r',
  fit W -> static_world W -> jwf (i_val i) = true -> w_schema W s = SObj [(key, k)] -> kw_class k = Std KRef -> kw_ref k = Some t ->
  evaluate_root W fuel s i = Ok r -> evaluate_root W fuel' t i = Ok r' -> r_valid r = r_valid r'.
Proof.
  intros W fuel fuel' s key k t i r r' F St Hw Hs Hk Hr E E'.
  pose proof (C41_verdict W fuel s key k t i r F Hw Hs Hk Hr E) as A. pose proof (evaluate_accepts W fuel' t i r' F Hw E') as A'.
  apply (accepts_unique W [s] t (i_val i)); [exact A|]. exact (accepts_scope W [] [s] t (i_val i) _ St A').
Qed.
Print Assumptions C41_transparent.
Definition ref_schema : list snode :=
  let k := kw_in dialect_2020_12 in
  [ SObj [ref_in dialect_2020_12 "$ref" 1]; SObj [k "properties" (KSubm [(lit "a", 2)])]; SObj [k "type" (KJ (text "string"))] ].
Example C41_case : fit (small ref_schema) /\ static_world (small ref_schema)
  /\ valid_of (evaluate_root (small ref_schema) 9 0 (root (obj [("a", text "t")]))) = Some true
  /\ valid_of (evaluate_root (small ref_schema) 9 0 (root (obj [("a", JNull)]))) = Some false
  /\ (exists r, evaluate_root (small ref_schema) 9 0 (root (obj [("a", text "t")])) = Ok r /\
        collect_annotations None (Some (lit "properties")) r = [JArr [text "a"]]).
Proof.
  split; [|split; [|split; [vm_compute; reflexivity|split; [vm_compute; reflexivity|eexists; split; vm_compute; reflexivity]]]].
  - exists dialect_2020_12, false. split; [now left|]. split; [apply good_small; vm_compute; reflexivity|].
    split; [left; apply no_unevaluated_small; vm_compute; reflexivity|apply plain_small; vm_compute; reflexivity].
  - intros [|[|[|s]]] kws key k H; cbn in H; try discriminate; [injection H as <-; intros [X|[]]; injection X as <- <-; split; [reflexivity|discriminate]..|].
    destruct s; discriminate.
Qed.

(** ** C42 *)

(** No schema resource is left and entered again on the way to the root. *)
Definition no_reentry (W : world) (scope : list sid) : Prop :=
  forall l1 s l2 s' l3, scope = l1 ++ s :: l2 ++ s' :: l3 -> w_base W s <> None -> w_base W s = w_base W s' ->
    forall m, In m l2 -> w_base W m = w_base W s.

Lemma no_reentry_tail W s r : no_reentry W (s :: r) -> no_reentry W r.
Proof. intros H l1 a l2 b l3 ->. apply (H (s :: l1) a l2 b l3). reflexivity. Qed.

Lemma visited_outermost W f scope : no_reentry W scope -> forall checked cur,
  (forall l1 s l2 b, scope = l1 ++ s :: l2 -> w_base W s = Some b -> In b checked ->
     (forall m, In m l1 -> w_base W m = Some b) /\ forall t, anchored W f s = Some t -> cur = t) ->
  visited_choice W f scope checked cur = match outermost (anchored W f) scope with Some t => t | None => cur end.
Proof.
  induction scope as [|s r IH]; intros N checked cur C; [reflexivity|]. cbn [visited_choice outermost].
  specialize (IH (no_reentry_tail _ _ _ N)). destruct (w_base W s) as [b|] eqn:B.
  - destruct (mem_str b checked) eqn:M.
    + apply mem_str_In in M. rewrite IH.
      * destruct (outermost (anchored W f) r); [reflexivity|]. destruct (anchored W f s) as [t|] eqn:A; [|reflexivity].
        exact (proj2 (C [] s r b eq_refl B M) t A).
      * intros l1 s' l2 b' -> B' M'. destruct (C (s :: l1) s' l2 b' eq_refl B' M') as [C1 C2]. split; [|exact C2].
        intros m Hm. apply C1. now right.
    + rewrite IH.
      * destruct (outermost (anchored W f) r); [reflexivity|]. now destruct (anchored W f s).
      * intros l1 s' l2 b' -> B' [<-|M'].
        -- split.
           ++ intros m Hm. rewrite <- B. apply (N [] s l1 s' l2 eq_refl); [congruence|congruence|exact Hm].
           ++ intros t A. assert (X : anchored W f s = anchored W f s') by (unfold anchored; now rewrite B, B'). now rewrite X, A.
        -- exfalso. destruct (C (s :: l1) s' l2 b' eq_refl B' M') as [C1 _]. specialize (C1 s (or_introl eq_refl)).
           rewrite B in C1. injection C1 as ->. apply mem_str_In in M'. congruence.
  - rewrite IH.
    + destruct (outermost (anchored W f) r); [reflexivity|]. unfold anchored. now rewrite B.
    + intros l1 s' l2 b' -> B' M'. destruct (C (s :: l1) s' l2 b' eq_refl B' M') as [C1 _]. specialize (C1 s (or_introl eq_refl)). congruence.
Qed.

(** A check for concrete scopes. *)
Definition same_base (W : world) (s s' : sid) : bool :=
  match w_base W s, w_base W s' with Some a, Some b => str_eqb a b | None, None => true | _, _ => false end.
Fixpoint left_behind (W : world) (s : sid) (r : list sid) : bool :=
  match r with
  | [] => true
  | m :: r' => if same_base W s m then left_behind W s r' else forallb (fun u => negb (same_base W s u)) r'
  end.
Fixpoint no_reentryb (W : world) (scope : list sid) : bool :=
  match scope with [] => true | s :: r => left_behind W s r && no_reentryb W r end.
Lemma same_base_eq W s s' : same_base W s s' = true <-> w_base W s = w_base W s'.
Proof.
  unfold same_base. destruct (w_base W s), (w_base W s'); try (split; congruence). rewrite str_eqb_eq. split; congruence.
Qed.
Lemma no_reentryb_spec W scope : no_reentryb W scope = true -> no_reentry W scope.
Proof.
  induction scope as [|s r IH]; cbn [no_reentryb]; [intros _ [|? l1] ? ? ? ? X; discriminate|].
  rewrite andb_true_iff. intros [L R] [|u l1] a l2 b l3 E Na Q; [|injection E as <- E; exact (IH R l1 a l2 b l3 E Na Q)].
  injection E as <- E. clear IH R Na. revert r L E. induction l2 as [|m l2 IH]; intros r L E; [intros _ []|]. subst r. cbn [app left_behind] in L.
  destruct (same_base W s m) eqn:B.
  - intros m' [<-|Hm]; [symmetry; now apply same_base_eq|]. exact (IH _ L eq_refl m' Hm).
  - exfalso. rewrite forallb_forall in L. specialize (L b). rewrite in_app_iff in L. cbn [In] in L. apply same_base_eq in Q. rewrite Q in L. discriminate L. auto.
Qed.

(** Missing from C42: evaluation paths that enter a schema resource, leave it
    and enter it again; for these it is false (C42_refuted).
    [r_schema n :: anc] is the evaluation path, innermost first. *)
Theorem C42_outermost_partial : forall W ev k s i anc parent n n', kw_ref k = Some s -> kw_dynamic k = true ->
  no_reentry W (r_schema n :: anc) ->
  eval_std W ev k KDynamicRef i anc parent n = Ok n' ->
  let t := dynamic_choice W (kw_fragment k) (r_schema n :: anc) s in
  exists m, ev t i anc n = Ok m /\ n' = refschema m t.
Proof.
  intros W ev k s i anc parent n n' Hk Hd N E. cbv zeta. cbn [eval_std] in E. unfold e_dynamicRef in E. rewrite Hk, Hd in E.
  destruct (dynamic_target W (kw_fragment k) (r_schema n :: anc) [] s) as [t| |] eqn:T; cbn [bind] in E; try discriminate.
  apply dynamic_target_choice in T. rewrite (visited_outermost W (kw_fragment k) _ N) in T by (intros ? ? ? ? _ _ []).
  unfold dynamic_choice. rewrite T. destruct (ev t i anc n) as [m| |]; cbn [bind] in E; try discriminate. injection E as <-. eauto.
Qed.
Print Assumptions C42_outermost_partial.
(** Without a dynamic anchor at the initial target it is an ordinary
    reference. *)
Theorem C42_static : forall W ev k s i anc parent n n', kw_ref k = Some s -> kw_dynamic k = false ->
  eval_std W ev k KDynamicRef i anc parent n = Ok n' -> exists m, ev s i anc n = Ok m /\ n' = refschema m s.
Proof.
  intros W ev k s i anc parent n n' Hk Hd E. cbn [eval_std] in E. unfold e_dynamicRef in E. rewrite Hk, Hd in E. cbn [bind] in E.
  destruct (ev s i anc n) as [m| |]; cbn [bind] in E; try discriminate. injection E as <-. eauto.
Qed.
Print Assumptions C42_static.

(** Resources A (schemas 0, 1), B (schema 2): 2 refers to #node, declared by 1
    in A and by 2 in B.  From 0 through 1 to 2, the anchor in A is taken. *)
Definition dyn_schemas : list snode :=
  let k := kw_in dialect_2020_12 in
  [ SObj [ref_in dialect_2020_12 "$ref" 2]; SObj [k "$dynamicAnchor" (KJ (text "node")); k "type" (KJ (text "string"))];
    SObj [k "$dynamicAnchor" (KJ (text "node")); k "properties" (KSubm [(lit "a", 3)])]; SObj [dynref "node" 2] ].
Definition dyn_world : world :=
  with_bases (small dyn_schemas) (fun s => Some (lit (match s with 0 | 1 => "A" | _ => "B" end)))
    (fun b f => if str_eqb f (lit "node") then if str_eqb b (lit "A") then Some 1 else Some 2 else None).
Example C42_case :
  no_reentry dyn_world [3; 2; 2; 0; 0] /\ dynamic_choice dyn_world (lit "node") [3; 2; 2; 0; 0] 2 = 1
  /\ valid_of (evaluate_root dyn_world 9 0 (root (obj [("a", text "t")]))) = Some true
  /\ valid_of (evaluate_root dyn_world 9 0 (root (obj [("a", JNull)]))) = Some false
  /\ valid_of (evaluate_root dyn_world 9 2 (root (obj [("a", JNull)]))) = Some true.
Proof.
  split; [apply no_reentryb_spec; vm_compute; reflexivity|vm_compute; auto].
Qed.

(** ** C43 *)
Theorem C43_outermost : forall W ev k s i anc parent n n', kw_ref k = Some s ->
  eval_std W ev k KRecursiveRef i anc parent n = Ok n' ->
  let t := recursive_choice W (r_schema n :: anc) s in
  exists m, ev t i anc n = Ok m /\ n' = refschema m t.
Proof.
  intros W ev k s i anc parent n n' Hk E. cbv zeta. cbn [eval_std] in E. unfold e_recursiveRef in E. rewrite Hk in E.
  destruct (has_recursive_anchor W s) as [y| |] eqn:A; cbn [bind] in E; try discriminate. apply has_recursive_anchor_declares in A.
  unfold recursive_choice. rewrite A. destruct y.
  - destruct (recursive_target W (r_schema n :: anc) s) as [t| |] eqn:T; cbn [bind] in E; try discriminate.
    apply recursive_target_choice in T. rewrite <- T. destruct (ev t i anc n) as [m| |]; cbn [bind] in E; try discriminate. injection E as <-. eauto.
  - cbn [bind] in E. destruct (ev s i anc n) as [m| |]; cbn [bind] in E; try discriminate. injection E as <-. eauto.
Qed.
Print Assumptions C43_outermost.
(** A list of nodes, extended from outside by a schema that forbids null. *)
Definition rec_schemas : list snode :=
  let k := kw_in dialect_2019_09 in
  [ SObj [k "$recursiveAnchor" (KJ (JBool true)); ref_in dialect_2019_09 "$ref" 1; k "not" (KSub 3)];
    SObj [k "$recursiveAnchor" (KJ (JBool true)); k "properties" (KSubm [(lit "next", 2)])];
    SObj [ref_in dialect_2019_09 "$recursiveRef" 1]; SObj [k "type" (KJ (text "null"))] ].
Example C43_case :
  recursive_choice (small rec_schemas) [2; 1; 1; 0; 0] 1 = 0
  /\ valid_of (evaluate_root (small rec_schemas) 9 0 (root (obj [("next", JNull)]))) = Some false
  /\ valid_of (evaluate_root (small rec_schemas) 9 1 (root (obj [("next", JNull)]))) = Some true.
Proof. vm_compute. auto. Qed.

(** ** C53 *)

(** [kw_format k] holds the types that the validator covers if the format was
    enabled when the keyword was constructed; that is C53_enabled in
    PropsBuild.v. *)
Theorem C53_asserts : forall W ev k a i anc parent n n',
  kw_json k = KJ (JStr a) -> r_valid n = true -> r_assert n = true ->
  eval_std W ev k KFormat i anc parent n = Ok n' ->
  r_annot n' = JStr a /\
  (passed n' = false <-> exists types, kw_format k = Some types /\ In (type_of (i_val i)) types /\ w_format W a (i_val i) = false).
Proof.
  intros W ev k a i anc parent n n' Hk V A E. cbn [eval_std] in E. unfold e_format in E. rewrite Hk in E.
  destruct (kw_format k) as [types|].
  - destruct (mem_type (type_of (i_val i)) types) eqn:M; injection E as <-.
    + assert (HIn : In (type_of (i_val i)) types).
      { unfold mem_type in M. apply existsb_exists in M. destruct M as (t & Ht & Et). destruct (type_of (i_val i)), t; cbn in Et; congruence. }
      split; [unfold check; now destruct (w_format W a (i_val i))|]. unfold check, passed. destruct (w_format W a (i_val i)) eqn:F; cbn [fail annotate r_valid r_assert].
      * rewrite V. split; [discriminate|]. intros (ts & _ & _ & X). discriminate.
      * rewrite A. split; [intros _; eauto|reflexivity].
    + split; [reflexivity|]. unfold passed. cbn [noassert annotate r_valid r_assert negb]. rewrite orb_true_r.
      split; [discriminate|]. intros (ts & [= <-] & Ht & _). exfalso. unfold mem_type in M.
      apply not_true_iff_false in M. apply M, existsb_exists. exists (type_of (i_val i)). split; [exact Ht|]. now destruct (type_of (i_val i)).
  - injection E as <-. split; [reflexivity|]. unfold passed. cbn [noassert annotate r_valid r_assert negb]. rewrite orb_true_r.
    split; [discriminate|]. intros (ts & [=] & _).
Qed.
Print Assumptions C53_asserts.
Example C53_case :
  let W := mkWorld (fun _ => SBool true) (fun _ => None) (fun _ _ => None) (fun _ _ => None) (fun m e => (m, e))
             (fun a x => match x with JStr s => Nat.eqb (length s) 3 | _ => false end) (fun _ _ => []) in
  let k on := mkKw (Std KFormat) (KJ (text "code")) None false [] (if on : bool then Some [TString] else None) in
  let run on x := match eval_std W (fun _ _ _ n => Ok n) (k on) KFormat (root x) [] (new_root 0 (root x)) (new_root 0 (root x)) with
                  | Ok n => Some (passed n) | _ => None end in
  run true (text "abc") = Some true /\ run true (text "ab") = Some false /\ run true (int 1) = Some true /\ run false (text "ab") = Some true.
Proof. vm_compute. auto. Qed.
