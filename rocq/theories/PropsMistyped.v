(** C95: keyword values of a type that the metaschemas forbid. *)
From Coq Require Import String List Bool ZArith.
From Verif Require Import Schema SpecSound SpecSchema SpecMistyped SchemaFacts SchemaSafe Suite.
Import ListNotations.
Open Scope list_scope.
Open Scope nat_scope.

(** The keyword's node is left as it is, or marked as failed with some error. *)
Definition answers (a : reaction) (before : rnode) (r : res rnode) : Prop :=
  match a with
  | Passes => r = Ok before
  | Fails => exists e, r = Ok (fail before e)
  | Raises e => r = Exn e
  end.

Lemma none_equal (l : list json) x : (forall y, In y l -> exists t, y = JStr t /\ x <> JStr t) -> existsb (fun y => json_eqb y x) l = false.
Proof.
  intro H. destruct (existsb _ l) eqn:E; [|reflexivity]. apply existsb_exists in E. destruct E as (y & Hy & E).
  destruct (H y Hy) as (t & -> & N). destruct x; cbn [json_eqb] in E; try discriminate E. apply str_eqb_eq in E. congruence.
Qed.
Lemma has_some p m n w : In (n, w) m -> has_member (mkInst p (JObj m)) n = true.
Proof.
  intro H. unfold has_member. cbn [i_val]. apply dmem_In. unfold keys. apply in_map_iff. now exists (n, w).
Qed.
Lemma has_none p m n : (forall w, ~ In (n, w) m) -> has_member (mkInst p (JObj m)) n = false.
Proof.
  intro H. unfold has_member. cbn [i_val]. apply dmem_false. unfold keys. intro K. apply in_map_iff in K.
  destruct K as ([n' w] & E & K). cbn [fst] in E. subst n'. exact (H w K).
Qed.
Lemma dependents_raise p m before n v after w e :
  (forall n' v', In (n', v') before -> (exists l, v' = JArr l) \/ forall w', ~ In (n', w') m) -> In (n, w) m ->
  unloopable v /\ e = EType \/ (exists c t, v = JStr (c :: t)) /\ e = EAttribute \/ (exists nv l, v = JObj (nv :: l)) /\ e = EAttribute ->
  missing_dependents (mkInst p (JObj m)) (before ++ (n, v) :: after) = Exn e.
Proof.
  intros B I C. induction before as [|[n' v'] before IH]; cbn [app missing_dependents].
  - rewrite (has_some p m n w I). destruct C as [[U ->]|[[(c & t & ->) ->]|[(nv & l & ->) ->]]]; [destruct U|..]; reflexivity.
  - specialize (IH (fun n0 v0 H => B n0 v0 (or_intror H))). destruct (has_member _ n') eqn:Hn; [|exact IH].
    destruct (B n' v' (or_introl eq_refl)) as [[l ->]|N]; [|rewrite (has_none p m n' N) in Hn; discriminate Hn].
    cbn [iterated_nodes bind]. rewrite IH. reflexivity.
Qed.
Section Mistyped.
Variable W : world.
Variable ev : sid -> inst -> list sid -> rnode -> res rnode.

Lemma std_answers k c v i anc parent result a :
  kw_json k = KJ v -> mistyped c v (i_val i) a ->
  answers a result (eval_std W ev k c i anc parent result).
Proof.
  intros J M. destruct i as [p x]. cbn [i_val] in M. destruct M; unfold eval_std; rewrite J.
  - (* enum, a character *) cbn [e_enum iterated bind i_val]. cbn [answers]. rewrite (proj2 (existsb_exists _ _)); [reflexivity|].
    exists (JStr [c]). split; [exact (in_map (fun d => JStr [d]) t c H)|]. cbn [json_eqb]. apply str_eqb_refl.
  - cbn [e_enum iterated bind i_val]. eexists. rewrite (none_equal _ x); [reflexivity|].
    intros y Hy. apply in_map_iff in Hy. destruct Hy as (c & <- & Hc). exists [c]. split; [reflexivity|]. exact (fun E => H c Hc E).
  - cbn [e_enum iterated bind i_val]. cbn [answers]. rewrite (proj2 (existsb_exists _ _)); [reflexivity|].
    exists (JStr n). split; [apply in_map; unfold keys; apply in_map_iff; exists (n, v); auto|]. cbn [json_eqb]. apply str_eqb_refl.
  - cbn [e_enum iterated bind i_val]. eexists. rewrite (none_equal _ x); [reflexivity|].
    intros y Hy. apply in_map_iff in Hy. destruct Hy as (n & <- & Hn). apply in_map_iff in Hn. destruct Hn as ([n' v] & <- & Hn).
    exists n'. split; [reflexivity|]. exact (fun E => H n' v Hn E).
  - destruct H; reflexivity.
  - destruct H as [-> | ->]; reflexivity.
  - reflexivity.
  - reflexivity.
  - destruct H; reflexivity.
  - destruct H as [-> | ->]; reflexivity.
  - reflexivity.
  - reflexivity.
  - destruct H; reflexivity.
  - (* dependentRequired, inside *) cbn [e_dependentRequired iterated_items bind answers].
    rewrite (dependents_raise p m before n v after w e H H0 H1). reflexivity.
  - (* multipleOf *) unfold e_multipleOf. cbn [i_val inst_num]. destruct (dumps_finite (writer W) v H0) as [b Eb]. destruct (dumps_finite (writer W) (JNum n) H1) as [a Ea].
    destruct v; try contradiction; cbn [tell]; rewrite Ea; cbn [bind]; rewrite Eb; cbn [bind]; eexists; reflexivity.
  - (* limits *) assert (N : num_of (KJ v) = None) by (destruct v; (reflexivity || contradiction)).
    cbn [limiting In] in H. repeat (destruct H as [<-|H]; [unfold limit; rewrite N; reflexivity|]). contradiction.
  - (* type *) unfold e_type. assert (T : type_names (KJ v) = []) by (destruct H; reflexivity). rewrite T. cbn [mem_str existsb].
    destruct (said_finite W "The instance must be of type " v "" H0) as [t E]. rewrite E.
    assert (B : (match x with JNum _ => Ok false | _ => Ok false end : res bool) = Ok false) by (destruct x; reflexivity).
    cbn [i_val]. destruct x; cbn [bind tell]; eexists; reflexivity.
  - destruct H as [->|[->|[->|[->| ->]]]]; reflexivity.
  - reflexivity.
  - eexists. reflexivity.
  - eexists. reflexivity.
  - cbn [In] in H. destruct H as [<-|[<-|[<-|[]]]]; reflexivity.
  - unfold with_prefix, e_prefixItems, answers. destruct (items_of _); reflexivity.
  - destruct t; reflexivity.
  - reflexivity.
Qed.
End Mistyped.


(** Whatever else is in the schema: the keyword's own node, and the nodes
    beside it, which stay as they are. *)
Theorem C95_keyword W ev k c v i anc parent result a :
  kw_class k = Std c -> kw_json k = KJ v -> mistyped c v (i_val i) a ->
  match a with
  | Passes => eval_keyword W ev k i anc parent result = Ok (parent, result)
  | Fails => exists e, eval_keyword W ev k i anc parent result = Ok (parent, fail result e)
  | Raises e => eval_keyword W ev k i anc parent result = Exn e
  end.
Proof.
  intros C J M. pose proof (std_answers W ev k c v i anc parent result a J M) as A.
  assert (N : c <> KMinContains) by (intros ->; inversion M; subst; cbn [limiting In] in *; intuition discriminate).
  assert (E : eval_keyword W ev k i anc parent result = bind (eval_std W ev k c i anc parent result) (fun r => Ok (parent, r)))
    by (unfold eval_keyword; rewrite C; destruct c; try reflexivity; now elim N).
  rewrite E. destruct a; cbn [answers] in A; [rewrite A|destruct A as [e ->]|rewrite A]; cbn [bind]; eauto.
Qed.
Print Assumptions C95_keyword.

(** A schema with no other keyword. *)
Theorem C95_schema W fuel s key k c v i a :
  w_schema W s = SObj [(key, k)] -> kw_class k = Std c -> kw_json k = KJ v -> applicable k i = true -> mistyped c v (i_val i) a ->
  match a with
  | Passes => exists n, evaluate_root W (S fuel) s i = Ok n /\ r_valid n = true
  | Fails => exists n, evaluate_root W (S fuel) s i = Ok n /\ r_valid n = false
  | Raises e => evaluate_root W (S fuel) s i = Exn e
  end.
Proof.
  intros S C J A M. unfold evaluate_root. cbn [evaluate]. rewrite S. cbn [eval_keywords]. rewrite A.
  set (node := new_root s i). set (child := new_child node key i s).
  pose proof (C95_keyword W (evaluate W fuel) k c v i (r_schema node :: []) (put_child node key i child) child a C J M) as K.
  destruct a.
  - rewrite K. cbn [bind]. eexists. split; [reflexivity|]. unfold close_child, finish, put_child, with_children, ckey_eqb, child, node. cbn. unfold ckey_eqb. cbn. rewrite ?str_eqb_refl, ?strs_eqb_refl. cbn. rewrite ?strs_eqb_refl. reflexivity.
  - destruct K as [e ->]. cbn [bind]. eexists. split; [reflexivity|]. unfold close_child, finish, put_child, with_children, ckey_eqb, child, node. cbn. unfold ckey_eqb. cbn. rewrite ?str_eqb_refl, ?strs_eqb_refl. cbn. rewrite ?strs_eqb_refl. reflexivity.
  - rewrite K. reflexivity.
Qed.
Print Assumptions C95_schema.

(** Constructed and evaluated: schemas with instances they accept, then refuse,
    then raise on. *)
Definition raises_on (e : json) : bool :=
  both (schema_of (Some "2020-12"%string) (nth_of 0 e)) (fun sc => match evaluated sc (nth_of 1 e) with Exn _ => true | _ => false end).
Definition each_says (b : bool) (e : json) : bool :=
  both (schema_of (Some "2020-12"%string) (nth_of 0 e)) (fun sc => valid_is b (evaluated sc (nth_of 1 e))).
Example C95_case :
  all_pass (each_says true) (elements (given
"[[{""enum"": ""abc""}, ""b""], [{""enum"": {""a"": 1, ""bc"": 2}}, ""bc""], [{""required"": """"}, {}], [{""required"": {}}, {}], [{""dependentRequired"": []}, {""a"": 1}], [{""dependentRequired"": {""a"": 7}}, {""b"": 1}], [{""uniqueItems"": null}, [1, 1]], [{""allOf"": """"}, 1], [{""prefixItems"": ""ab""}, []], [{""prefixItems"": """"}, [1]]]")) = true /\
  all_pass (each_says false) (elements (given
"[[{""enum"": ""abc""}, ""bc""], [{""enum"": {""a"": 1, ""bc"": 2}}, 1], [{""multipleOf"": true}, 3], [{""multipleOf"": [2]}, 4], [{""type"": null}, null], [{""anyOf"": """"}, 1], [{""oneOf"": """"}, 1]]")) = true /\
  all_pass raises_on (elements (given
"[[{""enum"": 1}, 1], [{""required"": ""ab""}, {}], [{""required"": {""a"": 1}}, {""a"": 1}], [{""required"": true}, {}], [{""dependentRequired"": ""a""}, {}], [{""dependentRequired"": {""b"": [], ""a"": 7}}, {""a"": 1}], [{""maximum"": ""5""}, 1], [{""minLength"": []}, ""a""], [{""allOf"": ""a""}, 1], [{""prefixItems"": ""ab""}, [1]]]")) = true.
Proof. vm_compute. repeat split; reflexivity. Qed.
