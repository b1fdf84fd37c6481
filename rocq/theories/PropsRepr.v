(** C93: repr() gives an expression for an equal object. *)
From Coq Require Import String List Bool Lia NArith.
From Verif Require Import BaseFacts JsonFacts PointerFacts RelPointerFacts ReprObjects SpecReprs TextFacts PropsText PythonFacts PropsPointer PropsRel.
Import ListNotations.
Open Scope string_scope.
Open Scope list_scope.
Open Scope N_scope.

(** An expression has one value. *)
Theorem C93_one_value : forall F t v v', python F t v -> python F t v' -> v = v'.
Proof. exact python_unique. Qed.
Print Assumptions C93_one_value.

(** repr of a string evaluates to the string, whatever characters count as
    printable. *)
Theorem C93_strings : forall F pr s, sensible pr -> Forall (fun c => c <= 1114111) s -> python F (repr_str_by pr s) (JStr s).
Proof. intros. now apply python_str_by. Qed.
Print Assumptions C93_strings.
(** So different strings have different reprs. *)
Theorem C93_strings_distinct : forall pr s s', sensible pr -> Forall (fun c => c <= 1114111) s -> Forall (fun c => c <= 1114111) s' ->
  repr_str_by pr s = repr_str_by pr s' -> s = s'.
Proof.
  intros pr s s' P V V' E. set (F := some_floats). pose proof (python_str_by F pr s P V) as A. pose proof (python_str_by F pr s' P V') as B. rewrite <- E in B.
  pose proof (python_unique F _ _ _ A B) as X. now injection X.
Qed.
Print Assumptions C93_strings_distinct.

(** repr of a value without NaN and infinities evaluates to the value. *)
Theorem C93_values : forall F v, jwf v = true -> ~ non_finite v -> agree F v ->
  exists v', python F (repr_value F v) v' /\ again v v' /\ json_eqb v v' = true.
Proof.
  intros F v W N A. destruct (repr_python F v W N A) as (v' & P & Ag). exists v'. split; [exact P|]. split; [exact Ag|].
  destruct (again_equal v W v' Ag) as [W' Q]. now apply json_eqb_jeq.
Qed.
Print Assumptions C93_values.
Theorem C93_distinct : forall F v w, jwf v = true -> jwf w = true -> ~ non_finite v -> ~ non_finite w -> agree F v -> agree F w ->
  repr_value F v = repr_value F w -> json_eqb v w = true.
Proof.
  intros F v w Wv Ww Nv Nw Av Aw E. destruct (C93_values F v Wv Nv Av) as (v' & P & Ag & Q). destruct (C93_values F w Ww Nw Aw) as (w' & P' & Ag' & Q').
  rewrite E in P. pose proof (python_unique F _ _ _ P P') as X. subst w'. destruct (again_equal v Wv v' Ag) as [W' _].
  rewrite json_eqb_sym in Q' by assumption. eapply json_eqb_trans; [| | |exact Q|exact Q']; assumption.
Qed.
Print Assumptions C93_distinct.

(** repr of a node: JSON( ... ) around an expression for its value; ValueError
    if there is a NaN or an infinity in it. *)
Theorem C93_nodes : forall F v, jwf v = true -> agree F v ->
  (non_finite v -> repr_node F v = Exn EValue) /\
  (~ non_finite v -> exists t v', repr_node F v = Ok (lit "JSON(" ++ t ++ lit ")") /\ python F t v' /\ json_eqb v v' = true).
Proof.
  intros F v W A. destruct (C83_dumps F v) as [H1 H2]. unfold repr_node. split; intro N.
  - now rewrite (H1 N).
  - destruct (H2 N) as [u ->]. destruct (C93_values F v W N A) as (v' & P & _ & Q). exists (repr_value F v), v'. auto.
Qed.
Print Assumptions C93_nodes.

(** repr of a pointer evaluates to the pointer. *)
Theorem C93_pointers : forall F p, py_pointer F (repr_pointer p) p.
Proof. intros F p. unfold repr_pointer. apply (pp_call F _ (pointer_str p)); [apply python_str|apply C01_keys_text_keys]. Qed.
Print Assumptions C93_pointers.
(** Of a relative pointer made of a text or of numbers, to an equal one. *)
Theorem C93_relative : forall F r, (exists s, parse_rel s = Ok r) \/ (exists up over ref, (0 <= up)%Z /\ r = mk_rel up over ref) ->
  exists r', py_relative F (repr_rel r) r' /\ rel_eqb r' r = true.
Proof.
  intros F r [(s & H)|(up & over & ref & U & ->)].
  - exists r. split; [|apply C11_equality; auto]. unfold repr_rel. rewrite (C11_str_of_parse s r H). apply (pr_call F _ s); [apply python_str|exact H].
  - destruct (C11_parse_of_str up over ref U) as (r & P & Q & _). exists r. split; [|exact Q]. unfold repr_rel. apply (pr_call F _ (rel_str (mk_rel up over ref))); [apply python_str|exact P].
Qed.
Print Assumptions C93_relative.

(** Of a patch, to an equal patch. *)
Lemma repr_member o : py_member (repr_opname o) o.
Proof. destruct o; constructor. Qed.
Lemma repr_operation_py F o : jwf (po_value o) = true -> ~ non_finite (po_value o) -> agree F (po_value o) ->
  exists o', py_operation F (repr_operation F o) o' /\ patchop_eqb o o' = true.
Proof.
  intros W N A. destruct (C93_values F _ W N A) as (v' & P & _ & Q). exists (mkOp (po_op o) (po_path o) v' (po_from o)). split.
  - unfold repr_operation. apply po_call; [apply repr_member|apply C93_pointers| |exact P]. destruct (po_from o); constructor. apply C93_pointers.
  - unfold patchop_eqb. cbn [po_op po_path po_from po_value]. rewrite Q. unfold pointer_eqb. rewrite strs_eqb_refl.
    assert (X : opname_eqb (po_op o) (po_op o) = true) by (destruct (po_op o); reflexivity). rewrite X. destruct (po_from o); [rewrite strs_eqb_refl|]; reflexivity.
Qed.
Theorem C93_patches : forall F ops, (forall o, In o ops -> jwf (po_value o) = true /\ ~ non_finite (po_value o) /\ agree F (po_value o)) ->
  exists ops', py_patch F (repr_patch F ops) ops' /\ patch_eqb ops ops' = true.
Proof.
  intros F ops H. destruct ops as [|o ops]; [exists []; split; [apply pc_none|reflexivity]|].
  assert (X : exists l, py_operations F (commas (map (repr_operation F) (o :: ops))) l /\ patch_eqb (o :: ops) l = true).
  { revert o H. induction ops as [|o1 ops IH]; intros o H; destruct (H o (or_introl eq_refl)) as (W & N & A); destruct (repr_operation_py F o W N A) as (o' & P & Q).
    - exists [o']. split; [now apply ps_last|]. cbn [patch_eqb]. now rewrite Q.
    - destruct (IH o1) as (l & Pl & Ql); [intros x Hx; apply H; now right|]. exists (o' :: l). split; [|change (patchop_eqb o o' && patch_eqb (o1 :: ops) l = true); now rewrite Q, Ql].
      exact (ps_more F _ o' _ l P Pl). }
  destruct X as (l & P & Q). exists l. split; [|exact Q]. unfold repr_patch, repr_list.
  replace (lit "JSONPatch(*" ++ (91 :: commas (map (repr_operation F) (o :: ops)) ++ [93]) ++ lit ")") with (lit "JSONPatch(*[" ++ commas (map (repr_operation F) (o :: ops)) ++ lit "])"); [now apply pc_some|].
  change (lit "JSONPatch(*[") with (lit "JSONPatch(*" ++ [91]). change (lit "])") with ([93] ++ lit ")"). rewrite <- !app_assoc. cbn [app]. rewrite <- !app_assoc. reflexivity.
Qed.
Print Assumptions C93_patches.

(** Not so for a patch with an infinite value: inf is not an expression for a
    plain value. *)
Theorem C93_infinite : forall F o path from v, ~ python F (repr_value F (po_value (mkOp o path (JNum (NInf false)) from))) v.
Proof. intros F o path from v H. destruct (python_head F _ _ H) as (c & r & E & K). cbn [po_value repr_value] in E. injection E as <- _. now apply K. Qed.
Print Assumptions C93_infinite.

Example C93_case :
  repr_pointer [lit "a/b"; lit "it's"] = lit "JSONPointer(" ++ 34 :: lit "/a~1b/it's" ++ 34 :: lit ")" /\
  repr_value some_floats written = lit "{'a""b': [-12, 1.5, None, True], '" ++ 128512 :: lit "\t\x01': {}}" /\
  jwf written = true /\ ~ non_finite written /\ agree some_floats written /\
  repr_patch some_floats [mkOp MOVE [lit "x"] JNull (Some []); mkOp ADD [] (JArr [JBool false]) None] =
    lit "JSONPatch(*[JSONPatchOperation(op=PatchOp.MOVE, path=JSONPointer('/x'), from_=JSONPointer(''), value=None), JSONPatchOperation(op=PatchOp.ADD, path=JSONPointer(''), from_=None, value=[False])])" /\
  repr_node some_floats (JArr [JStr (lit "x")]) = Ok (lit "JSON(['x'])").
Proof.
  split; [vm_compute; reflexivity|]. split; [vm_compute; reflexivity|]. destruct C83_case as (_ & _ & _ & _ & A & B & C). split; [exact A|]. split; [exact C|]. split; [exact B|].
  split; vm_compute; reflexivity.
Qed.
