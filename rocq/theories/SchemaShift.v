(** Evaluation does not depend on where the instance sits: evaluating it at
    path [p ++ q] gives the result for path [q] with [p] in front of every
    instance path. *)
From Coq Require Import List.
From Verif Require Export SchemaFacts SpecShift.
Import ListNotations.
Open Scope nat_scope.

Lemma bind_rmap {A B C D} (h : A -> B) (k : C -> D) (e : res A) (g : A -> res C) (g' : B -> res D) :
  (forall a, g' (h a) = rmap k (g a)) -> bind (rmap h e) g' = rmap k (bind e g).
Proof. intro H. destruct e; cbn [rmap bind]; auto. Qed.
Lemma bind_same {A C D} (k : C -> D) (e : res A) (g : A -> res C) (g' : A -> res D) :
  (forall a, g' a = rmap k (g a)) -> bind e g' = rmap k (bind e g).
Proof. intro H. destruct e; cbn [rmap bind]; auto. Qed.

Section Shift.
Variable p : path.

Notation shift := (SpecShift.shift p).
Notation shift_in := (SpecShift.shift_in p).
Notation shift_kc := (fun kc : (pystr * path) * rnode => ((fst (fst kc), p ++ snd (fst kc)), shift (snd kc))).

Lemma shift_eq n : shift n =
  mkR (r_key n) (r_path n) (r_relpath n) (r_schema n) (p ++ r_inst n) (r_valid n) (r_assert n) (r_discard n) (r_annot n) (r_error n) (r_ref n)
      (map shift_kc (r_children n)).
Proof. now destruct n. Qed.
Lemma strs_eqb_shift a b : strs_eqb (p ++ a) (p ++ b) = strs_eqb a b.
Proof. induction p as [|x q IH]; [reflexivity|]. cbn [app]. cbn [strs_eqb]. rewrite str_eqb_refl. exact IH. Qed.
Lemma ckey_eqb_shift k a k' b : ckey_eqb (k, p ++ a) (k', p ++ b) = ckey_eqb (k, a) (k', b).
Proof. unfold ckey_eqb. cbn [fst snd]. now rewrite strs_eqb_shift. Qed.
Lemma cget_shift k q m : cget (k, p ++ q) (map shift_kc m) = match cget (k, q) m with Some n => Some (shift n) | None => None end.
Proof.
  induction m as [|[[k' q'] n] m IH]; [reflexivity|]. cbn [map cget fst snd]. rewrite ckey_eqb_shift. now destruct (ckey_eqb _ _).
Qed.
Lemma cput_shift k q n m : cput (k, p ++ q) (shift n) (map shift_kc m) = map shift_kc (cput (k, q) n m).
Proof.
  induction m as [|[[k' q'] n'] m IH]; [reflexivity|]. cbn [map cput fst snd]. rewrite ckey_eqb_shift. destruct (ckey_eqb _ _); cbn [map fst snd]; [reflexivity|]. now rewrite IH.
Qed.
Lemma cdrop_shift k q m : cdrop (k, p ++ q) (map shift_kc m) = map shift_kc (cdrop (k, q) m).
Proof.
  induction m as [|[[k' q'] n'] m IH]; [reflexivity|]. cbn [map cdrop fst snd]. rewrite ckey_eqb_shift. destruct (ckey_eqb _ _); [reflexivity|]. cbn [map fst snd]. now rewrite IH.
Qed.

Lemma s_valid n : r_valid (shift n) = r_valid n. Proof. now destruct n. Qed.
Lemma s_discard n : r_discard (shift n) = r_discard n. Proof. now destruct n. Qed.
Lemma s_annot n : r_annot (shift n) = r_annot n. Proof. now destruct n. Qed.
Lemma s_schema n : r_schema (shift n) = r_schema n. Proof. now destruct n. Qed.
Lemma s_children n : r_children (shift n) = map shift_kc (r_children n). Proof. now destruct n. Qed.
Lemma s_inst n : r_inst (shift n) = p ++ r_inst n. Proof. now destruct n. Qed.
Lemma s_passed n : passed (shift n) = passed n. Proof. now destruct n. Qed.
Lemma s_node W n : schema_node W (shift n) = schema_node W n. Proof. now destruct n. Qed.
Lemma s_annotate n v : annotate (shift n) v = shift (annotate n v). Proof. now destruct n. Qed.
Lemma s_fail n v : fail (shift n) v = shift (fail n v). Proof. now destruct n. Qed.
Lemma s_pass n : pass_ (shift n) = shift (pass_ n). Proof. now destruct n. Qed.
Lemma s_noassert n : noassert (shift n) = shift (noassert n). Proof. now destruct n. Qed.
Lemma s_discarded n : discard (shift n) = shift (discard n). Proof. now destruct n. Qed.
Lemma s_refschema n t : refschema (shift n) t = shift (refschema n t). Proof. now destruct n. Qed.
Lemma s_with n cs : with_children (shift n) (map shift_kc cs) = shift (with_children n cs). Proof. now destruct n. Qed.
Lemma s_new n key i s : new_child (shift n) key (shift_in i) s = shift (new_child n key i s). Proof. now destruct n. Qed.
Lemma s_put n key i c : put_child (shift n) key (shift_in i) (shift c) = shift (put_child n key i c).
Proof. unfold put_child. cbn [shift_in i_path]. now rewrite s_children, cput_shift, s_with. Qed.
Lemma s_close n key i c : close_child (shift n) key (shift_in i) (shift c) = shift (close_child n key i c).
Proof. unfold close_child. rewrite s_discard, s_put. destruct (r_discard c); [|reflexivity]. cbn [shift_in i_path]. now rewrite s_children, cdrop_shift, s_with. Qed.
Lemma s_sibling n i key : sibling (shift n) (shift_in i) key = match sibling n i key with Some c => Some (shift c) | None => None end.
Proof. unfold sibling. cbn [shift_in i_path]. now rewrite s_children, cget_shift. Qed.
Lemma s_check ok msg n : check ok msg (shift n) = shift (check ok msg n).
Proof. unfold check. destruct ok; [reflexivity|apply s_fail]. Qed.

Lemma own_shift q key n : own_annotation (Some (p ++ q)) key (shift n) = own_annotation (Some q) key n.
Proof. unfold own_annotation. destruct n as [nk np nr ns ni nv na nd nan ne nf nc]. cbn [shift r_annot r_key r_inst]. now rewrite strs_eqb_shift. Qed.
Lemma collect_shift q key : forall n, collect_annotations (Some (p ++ q)) key (shift n) = collect_annotations (Some q) key n.
Proof.
  induction n as [n IH] using rnode_induction. rewrite !collect_annotations_eq, s_valid, s_discard, own_shift. destruct (_ && _); [|reflexivity]. f_equal.
  rewrite s_children. induction IH as [|kc cs H F IHF]; [reflexivity|]. cbn [map flat_map snd]. now rewrite H, IHF.
Qed.
Lemma own_shift_any key n : own_annotation None key (shift n) = own_annotation None key n.
Proof. unfold own_annotation. destruct n. reflexivity. Qed.
Lemma collect_shift_any key : forall n, collect_annotations None key (shift n) = collect_annotations None key n.
Proof.
  induction n as [n IH] using rnode_induction. rewrite !collect_annotations_eq, s_valid, s_discard, own_shift_any. destruct (_ && _); [|reflexivity]. f_equal.
  rewrite s_children. induction IH as [|kc cs H F IHF]; [reflexivity|]. cbn [map flat_map snd]. now rewrite H, IHF.
Qed.

Lemma items_from_shift q l : forall k, items_from (p ++ q) k l = map shift_in (items_from q k l).
Proof. induction l as [|v l IH]; intro k; [reflexivity|]. cbn [items_from map]. rewrite IH. unfold shift_in at 2. cbn [i_path i_val]. now rewrite app_assoc. Qed.
Lemma items_shift i : items_of (shift_in i) = map shift_in (items_of i).
Proof. unfold items_of. cbn [shift_in i_val i_path]. destruct (i_val i); try reflexivity. apply items_from_shift. Qed.
Notation shift_m := (fun ni : pystr * inst => (fst ni, shift_in (snd ni))).
Lemma members_shift i : members_of (shift_in i) = map shift_m (members_of i).
Proof.
  unfold members_of. cbn [shift_in i_val i_path]. destruct (i_val i); try reflexivity. rewrite map_map. apply map_ext. intros [k v]. cbn [fst snd].
  unfold shift_in. cbn [i_path i_val]. now rewrite app_assoc.
Qed.
Lemma has_shift i k : has_member (shift_in i) k = has_member i k.
Proof. reflexivity. Qed.

Section Ev.
Variable W : world.
Variable ev : sid -> inst -> list sid -> rnode -> res rnode.
Hypothesis Hev : forall s i anc n, ev s (shift_in i) anc (shift n) = rmap shift (ev s i anc n).
Notation on1 := (fun rc : rnode * rnode => (shift (fst rc), shift (snd rc))).
Notation onf := (fun rb => (shift (fst rb), snd rb)).

Lemma s_in_child result anc i key s : in_child ev (shift result) anc (shift_in i) key s = rmap on1 (in_child ev result anc i key s).
Proof. unfold in_child. rewrite s_schema, s_new, Hev. apply bind_rmap. intro c. cbn [rmap fst snd]. now rewrite s_close. Qed.

Lemma s_branches i anc l : forall k result, branches ev (shift_in i) anc k l (shift result) = rmap onf (branches ev i anc k l result).
Proof.
  induction l as [|s l IH]; intros k result; cbn [branches]; [reflexivity|]. rewrite s_in_child. apply bind_rmap. intros [r c]. cbn [fst snd].
  rewrite IH. apply bind_rmap. intros [r' bs]. cbn [fst snd rmap]. now rewrite s_passed.
Qed.
Lemma s_dependents i anc m : forall result, dependents ev (shift_in i) anc m (shift result) = rmap onf (dependents ev i anc m result).
Proof.
  induction m as [|[name s] m IH]; intros result; cbn [dependents]; [reflexivity|]. rewrite has_shift. destruct (has_member i name); [|apply IH].
  rewrite s_in_child. apply bind_rmap. intros [r c]. cbn [fst snd].
  rewrite IH. apply bind_rmap. intros [r' [g b]]. cbn [fst snd rmap]. now rewrite s_passed.
Qed.
Lemma s_pairwise anc js : forall l k result, pairwise ev anc k (map shift_in js) l (shift result) = rmap onf (pairwise ev anc k js l result).
Proof.
  induction js as [|j js IH]; intros l k result; cbn [pairwise map]; [reflexivity|]. destruct l as [|s l]; [reflexivity|].
  rewrite s_in_child. apply bind_rmap. intros [r c]. cbn [fst snd].
  rewrite IH. apply bind_rmap. intros [r' bs]. cbn [fst snd rmap]. now rewrite s_passed.
Qed.
Lemma s_each s anc js : forall result, each ev s anc (map shift_in js) (shift result) = rmap onf (each ev s anc js result).
Proof.
  induction js as [|j js IH]; intros result; cbn [each map]; [reflexivity|]. rewrite Hev. apply bind_rmap. intro r. cbv zeta.
  rewrite s_passed, s_pass. replace (if passed r then shift r else shift (pass_ r)) with (shift (if passed r then r else pass_ r)) by (destruct (passed r); reflexivity).
  rewrite IH. apply bind_rmap. intros [r' bs]. reflexivity.
Qed.
Lemma s_each_noreset s anc js : forall result, each_noreset ev s anc (map shift_in js) (shift result) = rmap shift (each_noreset ev s anc js result).
Proof. induction js as [|j js IH]; intros result; cbn [each_noreset map]; [reflexivity|]. rewrite Hev. apply bind_rmap. exact IH. Qed.
Lemma s_named subs anc l : forall result, named ev subs anc (map shift_m l) (shift result) = rmap onf (named ev subs anc l result).
Proof.
  induction l as [|[name j] l IH]; intros result; cbn [named map fst snd]; [reflexivity|]. destruct (dget name subs) as [s|]; [|apply IH].
  rewrite s_in_child. apply bind_rmap. intros [r c]. cbn [fst snd].
  rewrite IH. apply bind_rmap. intros [r' [g b]]. cbn [fst snd rmap]. now rewrite s_passed.
Qed.
Lemma s_matching anc name j subs : forall result, matching W ev subs anc name (shift_in j) (shift result) = rmap onf (matching W ev subs anc name j result).
Proof.
  induction subs as [|[r s] subs IH]; intros result; cbn [matching]; [reflexivity|]. destruct (w_search W r name) as [[|]|]; [|apply IH|reflexivity].
  rewrite s_in_child. apply bind_rmap. intros [r0 c]. cbn [fst snd].
  rewrite IH. apply bind_rmap. intros [r' [g b]]. cbn [fst snd rmap]. now rewrite s_passed.
Qed.
Lemma s_patterned subs anc l : forall result, patterned W ev subs anc (map shift_m l) (shift result) = rmap onf (patterned W ev subs anc l result).
Proof.
  induction l as [|[name j] l IH]; intros result; cbn [patterned map fst snd]; [reflexivity|]. rewrite s_matching. apply bind_rmap. intros [r [g b]]. cbn [fst snd].
  rewrite IH. apply bind_rmap. intros [r' [g' b']]. reflexivity.
Qed.

Lemma skipn_map {A B} (f : A -> B) n l : skipn n (map f l) = map f (skipn n l).
Proof. revert l. induction n as [|n IH]; intros [|a l]; cbn; auto. Qed.
Lemma s_items_from start s i anc result : e_items_from ev start s (shift_in i) anc (shift result) = rmap shift (e_items_from ev start s i anc result).
Proof.
  unfold e_items_from. rewrite items_shift, skipn_map, s_each. apply bind_rmap. intros [r bs]. cbn [fst snd rmap]. destruct (positions false start bs); now rewrite ?s_fail, ?s_annotate.
Qed.
Lemma unskipped_shift skip l : forall k, unskipped skip k (map shift_in l) = map (fun ki => (fst ki, shift_in (snd ki))) (unskipped skip k l).
Proof. induction l as [|j l IH]; intro k; cbn [unskipped map]; [reflexivity|]. rewrite IH. now destruct (mem_json _ _). Qed.
Lemma failing_shift {A} (f : A * inst -> json) (Hf : forall a j, f (a, shift_in j) = f (a, j)) l : forall bs,
  failing f (map (fun ki => (fst ki, shift_in (snd ki))) l) bs = failing f l bs.
Proof. induction l as [|[a j] l IH]; intros [|b bs]; cbn [failing map fst snd]; try reflexivity. rewrite Hf, IH. reflexivity. Qed.
Lemma s_unevaluated_from last skip s i anc result :
  e_unevaluated_from ev last skip s (shift_in i) anc (shift result) = rmap shift (e_unevaluated_from ev last skip s i anc result).
Proof.
  unfold e_unevaluated_from. cbv zeta. rewrite items_shift, skipn_map, unskipped_shift, map_map.
  rewrite (map_ext (fun x => snd (fst x, shift_in (snd x))) (fun x => shift_in (snd x))) by reflexivity. rewrite <- (map_map snd shift_in), s_each. apply bind_rmap. intros [r bs]. cbn [fst snd rmap].
  rewrite failing_shift by reflexivity. destruct (failing _ _ _); now rewrite ?s_fail, ?s_annotate.
Qed.
Lemma s_members todo s anc result : e_members ev (map shift_m todo) s anc (shift result) = rmap shift (e_members ev todo s anc result).
Proof.
  unfold e_members. rewrite map_map. rewrite (map_ext (fun x => snd (fst x, shift_in (snd x))) (fun x => shift_in (snd x))) by reflexivity.
  rewrite <- (map_map snd shift_in), s_each. apply bind_rmap. intros [r bs]. cbn [fst snd rmap].
  rewrite failing_shift by reflexivity. rewrite map_map. cbn [fst]. destruct (failing _ _ _); now rewrite ?s_fail, ?s_annotate.
Qed.
Lemma s_additional known patterns l : additional W known patterns (map shift_m l) = rmap (map shift_m) (additional W known patterns l).
Proof.
  induction l as [|[name j] l IH]; cbn [additional map fst snd]; [reflexivity|]. destruct (mem_str name known); [exact IH|].
  apply bind_same. intro m. rewrite IH. apply bind_rmap. intro rest. now destruct m.
Qed.
Lemma s_names parent i key : sibling_names W (shift parent) (shift_in i) key = sibling_names W parent i key.
Proof. unfold sibling_names. rewrite s_sibling. destruct (sibling parent i key); [|reflexivity]. now rewrite s_node. Qed.
Lemma filter_shift (f : pystr * inst -> bool) (Hf : forall a j, f (a, shift_in j) = f (a, j)) l : filter f (map shift_m l) = map shift_m (filter f l).
Proof. induction l as [|[a j] l IH]; [reflexivity|]. cbn [filter map fst snd]. rewrite Hf, IH. now destruct (f (a, j)). Qed.
Lemma s_unevaluatedProperties s i anc parent result :
  e_unevaluatedProperties ev s (shift_in i) anc (shift parent) (shift result) = rmap shift (e_unevaluatedProperties ev s i anc parent result).
Proof.
  unfold e_unevaluatedProperties. cbv zeta. change (i_path (shift_in i)) with (p ++ i_path i). rewrite !collect_shift.
  do 4 (apply bind_same; intro). rewrite members_shift, filter_shift by reflexivity. apply s_members.
Qed.
Lemma s_annotation v result : e_annotation v (shift result) = rmap shift (e_annotation v result).
Proof. unfold e_annotation. destruct v; try reflexivity. cbn [rmap]. now rewrite s_annotate, s_noassert. Qed.
Lemma s_tell b msg result : tell b msg (shift result) = rmap shift (tell b msg result).
Proof. unfold tell. destruct b; [reflexivity|]. destruct msg; cbn [bind rmap]; [now rewrite s_check|reflexivity|reflexivity]. Qed.
Lemma s_limit bad x v before after result : limit W bad x v before after (shift result) = rmap shift (limit W bad x v before after result).
Proof. unfold limit. destruct (num_of v); [|reflexivity]. apply s_tell. Qed.

Lemma s_missing i m : missing_dependents (shift_in i) m = missing_dependents i m.
Proof. induction m as [|[name l] m IH]; [reflexivity|]. cbn [missing_dependents]. now rewrite IH. Qed.

Lemma s_std k c i anc parent result :
  eval_std W ev k c (shift_in i) anc (shift parent) (shift result) = rmap shift (eval_std W ev k c i anc parent result).
Proof.
  assert (Sub : forall f g, (forall t, g t = rmap shift (f t)) -> with_sub (kw_json k) g = rmap shift (with_sub (kw_json k) f)).
  { intros f g H. unfold with_sub. destruct (kw_json k); auto. }
  assert (Subs : forall f g, (forall t, g t = rmap shift (f t)) -> with_subs (kw_json k) g = rmap shift (with_subs (kw_json k) f)).
  { intros f g H. unfold with_subs. destruct (kw_json k) as [[| | |[|]| |]| | |]; auto. }
  assert (Pref : forall f g, (forall t, g t = rmap shift (f t)) -> with_prefix (kw_json k) (shift_in i) g = rmap shift (with_prefix (kw_json k) i f)).
  { intros f g H. unfold with_prefix. rewrite items_shift. destruct (kw_json k) as [[| | |t| |]| | |]; auto. destruct t, (items_of i); cbn [map]; auto. }
  assert (Subm : forall f g, (forall t, g t = rmap shift (f t)) -> with_subm (kw_json k) g = rmap shift (with_subm (kw_json k) f)).
  { intros f g H. unfold with_subm. destruct (kw_json k); auto. }
  destruct c; cbn [eval_std]; try reflexivity; try apply s_annotation;
    try (change (inst_num (shift_in i)) with (inst_num i)); try (change (inst_len (shift_in i)) with (inst_len i)); try apply s_limit.
  - unfold e_ref. destruct (kw_ref k); [|reflexivity]. rewrite Hev. apply bind_rmap. intro. cbn [rmap]. now rewrite s_refschema.
  - unfold e_dynamicRef. destruct (kw_ref k); [|reflexivity]. rewrite s_schema. apply bind_same. intro. rewrite Hev. apply bind_rmap. intro. cbn [rmap]. now rewrite s_refschema.
  - unfold e_recursiveRef. destruct (kw_ref k); [|reflexivity]. rewrite s_schema. apply bind_same. intro. apply bind_same. intro. rewrite Hev. apply bind_rmap. intro. cbn [rmap]. now rewrite s_refschema.
  - apply Subs. intro l. unfold e_allOf. rewrite s_branches. apply bind_rmap. intros [r bs]. cbn [fst snd rmap]. rewrite s_fail. now destruct (forallb id bs).
  - apply Subs. intro l. unfold e_anyOf. rewrite s_branches. apply bind_rmap. intros [r bs]. cbn [fst snd rmap]. rewrite s_fail. now destruct (existsb id bs).
  - apply Subs. intro l. unfold e_oneOf. rewrite s_branches. apply bind_rmap. intros [r bs]. cbn [fst snd rmap]. rewrite s_fail. now destruct (Nat.eqb _ _).
  - apply Sub. intro t. unfold e_not. rewrite Hev. apply bind_rmap. intro r. cbn [rmap]. rewrite s_passed, s_fail, s_pass. now destruct (passed r).
  - apply Sub. intro t. unfold e_if. rewrite Hev. apply bind_rmap. intro r. cbn [rmap]. now rewrite s_noassert.
  - apply Sub. intro t. unfold e_branch. rewrite s_sibling. destruct (sibling parent i _) as [n|]; [|cbn [rmap]; now rewrite s_discarded]. rewrite s_valid.
    destruct (Bool.eqb _ _); [apply Hev|cbn [rmap]; now rewrite s_discarded].
  - apply Sub. intro t. unfold e_branch. rewrite s_sibling. destruct (sibling parent i _) as [n|]; [|cbn [rmap]; now rewrite s_discarded]. rewrite s_valid.
    destruct (Bool.eqb _ _); [apply Hev|cbn [rmap]; now rewrite s_discarded].
  - apply Subm. intro m. unfold e_dependentSchemas. rewrite s_dependents. apply bind_rmap. intros [r [g b]]. cbn [fst snd rmap]. destruct b; now rewrite ?s_fail, ?s_annotate.
  - apply Pref. intro l. unfold e_prefixItems. rewrite items_shift, s_pairwise. apply bind_rmap. intros [r bs]. cbn [fst snd rmap]. rewrite map_length.
    destruct (positions false 0 bs); [|now rewrite s_fail]. destruct bs; [reflexivity|]. now rewrite s_annotate.
  - apply Sub. intro t. unfold e_items. rewrite s_sibling. destruct (sibling parent i _) as [n|]; [|apply s_items_from]. rewrite s_node. apply bind_same.
    intros [|[]]; try reflexivity. apply s_items_from.
  - apply Sub. intro t. unfold e_unevaluatedItems. cbv zeta. change (i_path (shift_in i)) with (p ++ i_path i). rewrite !collect_shift. apply bind_same. intros [z|]; [|cbn [rmap]; now rewrite s_discarded].
    destruct (_ || _); [cbn [rmap]; now rewrite s_discarded|]. apply bind_same. intro skip. apply s_unevaluated_from.
  - apply Sub. intro t. unfold e_contains. rewrite items_shift, s_each. apply bind_rmap. intros [r bs]. cbn [fst snd]. cbv zeta. cbn [rmap]. 
    destruct (positions true 0 bs); now rewrite s_annotate, ?s_fail.
  - apply Subm. intro m. unfold e_properties. rewrite members_shift, s_named. apply bind_rmap. intros [r [g b]]. cbn [fst snd rmap]. destruct b; now rewrite ?s_fail, ?s_annotate.
  - apply Subm. intro m. unfold e_patternProperties. rewrite members_shift, s_patterned. apply bind_rmap. intros [r [g b]]. cbn [fst snd rmap]. destruct b; now rewrite ?s_fail, ?s_annotate.
  - apply Sub. intro t. unfold e_additionalProperties. rewrite !s_names. do 2 (apply bind_same; intro). rewrite members_shift, s_additional. apply bind_rmap. intro todo. apply s_members.
  - apply Sub. intro t. apply s_unevaluatedProperties.
  - apply Sub. intro t. unfold e_propertyNames. cbv zeta. rewrite members_shift, !map_map. cbn [fst snd].
    rewrite (map_ext (fun x : pystr * inst => mkInst (i_path (shift_in (snd x))) (JStr (fst x))) (fun x => shift_in (mkInst (i_path (snd x)) (JStr (fst x))))) by reflexivity.
    rewrite <- (map_map (fun x : pystr * inst => mkInst (i_path (snd x)) (JStr (fst x))) shift_in), s_each. apply bind_rmap. intros [r bs]. cbn [fst snd rmap].
    rewrite (map_ext (fun x : pystr * inst => (fst x, mkInst (i_path (shift_in (snd x))) (JStr (fst x))))
                     (fun x => shift_m (fst x, mkInst (i_path (snd x)) (JStr (fst x))))) by reflexivity.
    rewrite <- (map_map (fun x : pystr * inst => (fst x, mkInst (i_path (snd x)) (JStr (fst x)))) shift_m), failing_shift by reflexivity.
    destruct (failing _ _ _); now rewrite ?s_fail.
  - unfold e_items_2019. rewrite items_shift. destruct (items_of i) as [|j js]; [reflexivity|]. cbn [map]. change (shift_in j :: map shift_in js) with (map shift_in (j :: js)).
    destruct (kw_json k) as [|t|l|]; try reflexivity.
    + destruct (w_schema W t); [apply Hev|]. rewrite s_each_noreset. apply bind_rmap. intro r. cbn [rmap]. rewrite s_passed, s_annotate. now destruct (passed r).
    + rewrite s_pairwise. apply bind_rmap. intros [r bs]. cbn [fst snd rmap]. destruct (positions false 0 bs); now rewrite ?s_fail, ?s_annotate.
  - apply Sub. intro t. unfold e_additionalItems. rewrite s_sibling. destruct (sibling parent i _) as [n|]; [|cbn [rmap]; now rewrite s_discarded]. rewrite s_annot.
    destruct (r_annot n) as [| |[]| | |]; try (cbn [rmap]; now rewrite s_discarded). apply s_items_from.
  - apply Sub. intro t. unfold e_unevaluatedItems_2019. cbv zeta. change (i_path (shift_in i)) with (p ++ i_path i). rewrite !collect_shift. destruct (last_evaluated_2019 _ _); [|cbn [rmap]; now rewrite s_discarded].
    destruct (_ || _); [cbn [rmap]; now rewrite s_discarded|]. apply s_unevaluated_from.
  - apply Sub. intro t. apply s_unevaluatedProperties.
  - unfold e_type. cbv zeta. apply bind_same. intro. apply s_tell.
  - unfold e_enum. apply bind_same. intro. cbn [rmap]. now rewrite s_check.
  - unfold e_const. destruct (kw_json k) as [v| | |]; try reflexivity. cbn [rmap]. now rewrite s_check.
  - unfold e_multipleOf. destruct (kw_json k) as [[]| | |]; try reflexivity; apply s_tell.
  - unfold e_pattern. cbn [shift_in i_val]. destruct (kw_json k) as [[]| | |]; try reflexivity. destruct (i_val i); try reflexivity. destruct (w_search _ _ _); [|reflexivity]. apply s_tell.
  - unfold e_uniqueItems. cbn [shift_in i_val]. destruct (i_val i); try reflexivity. destruct (truthy _); [|reflexivity]. cbn [rmap]. now rewrite s_check.
  - unfold e_maxContains. rewrite s_sibling. destruct (sibling parent i _) as [n|]; [|reflexivity]. rewrite s_annot. destruct (is_null _); [reflexivity|]. apply bind_same. intro. apply s_limit.
  - unfold e_required. destruct (kw_json k) as [v| | |]; try reflexivity. apply bind_same. intro. cbn [rmap]. now rewrite <- s_check.
  - unfold e_dependentRequired. destruct (kw_json k) as [v| | |]; try reflexivity. apply bind_same. intro. rewrite s_missing. apply bind_same. intro. apply s_tell.
  - unfold e_format. destruct (kw_json k) as [v| | |]; try reflexivity. cbv zeta. cbn [shift_in i_val]. rewrite s_annotate, s_noassert. destruct (kw_format k); [|reflexivity].
    destruct v; try reflexivity. destruct (mem_type _ _); [|reflexivity]. cbn [rmap]. now rewrite s_check.
  - unfold e_contentSchema. rewrite s_sibling. destruct (sibling parent i _); [apply s_annotation|cbn [rmap]; now rewrite s_discarded].
Qed.

Lemma s_keyword k i anc parent result :
  eval_keyword W ev k (shift_in i) anc (shift parent) (shift result) = rmap on1 (eval_keyword W ev k i anc parent result).
Proof.
  unfold eval_keyword. destruct (kw_class k) as [c|].
  - assert (X : (let* r := eval_std W ev k c (shift_in i) anc (shift parent) (shift result) in Ok (shift parent, r)) =
                rmap on1 (let* r := eval_std W ev k c i anc parent result in Ok (parent, r))).
    { rewrite s_std. apply bind_rmap. reflexivity. }
    destruct c; try exact X. unfold e_minContains. rewrite s_sibling. destruct (sibling parent i (lit "contains")) as [n|]; [|reflexivity].
    rewrite s_annot, s_valid. apply bind_same. intro m. destruct (num_of _); [|reflexivity]. cbv zeta. rewrite s_tell. apply bind_rmap. intro r. cbn [rmap fst snd]. rewrite s_sibling, s_pass, s_put. cbn [fst snd].
    f_equal. f_equal. destruct (_ && _); [|reflexivity]. destruct (sibling parent i _) as [m'|]; [|reflexivity]. rewrite s_valid. now destruct (r_valid m').
  - rewrite s_annotation. apply bind_rmap. reflexivity.
Qed.
Lemma s_keywords s i anc kws : forall node, eval_keywords W ev s kws (shift_in i) anc (shift node) = rmap shift (eval_keywords W ev s kws i anc node).
Proof.
  induction kws as [|[key k] kws IH]; intro node; cbn [eval_keywords]; [reflexivity|]. change (applicable k (shift_in i)) with (applicable k i).
  destruct (applicable k i); [|apply IH]. cbv zeta. rewrite s_schema, s_new, s_put, s_keyword. apply bind_rmap. intros [r c]. cbn [fst snd]. rewrite s_close. apply IH.
Qed.
Lemma s_finish i node : finish (shift_in i) (shift node) = shift (finish i node).
Proof.
  unfold finish. rewrite s_children, s_fail. cbn [shift_in i_path].
  assert (E : existsb (fun kc => negb (passed (snd kc)) && strs_eqb (r_inst (snd kc)) (p ++ i_path i)) (map shift_kc (r_children node)) =
              existsb (fun kc => negb (passed (snd kc)) && strs_eqb (r_inst (snd kc)) (i_path i)) (r_children node)).
  { induction (r_children node) as [|kc cs IH]; [reflexivity|]. cbn [map existsb snd]. now rewrite s_passed, s_inst, strs_eqb_shift, IH. }
  match goal with |- (if ?b then _ else _) = shift (if ?c then _ else _) => assert (Q : b = c) by exact E; rewrite Q; now destruct c end.
Qed.
End Ev.

Theorem evaluate_shift W fuel : forall s i anc n, evaluate W fuel s (shift_in i) anc (shift n) = rmap shift (evaluate W fuel s i anc n).
Proof.
  induction fuel as [|f IH]; intros s i anc n; [reflexivity|]. cbn [evaluate]. destruct (w_schema W s) as [b|kws].
  - destruct b; [reflexivity|]. cbn [rmap]. now rewrite s_fail.
  - rewrite (s_keywords W _ IH). apply bind_rmap. intro r. cbn [rmap]. now rewrite s_finish.
Qed.
End Shift.
