(** C103: what evaluating a schema depends on. *)
From Coq Require Import String List Bool Lia.
From Verif Require Import SchemaCases TwinMade PropsBuild EditSane PropsEdit PropsEval.
Import ListNotations.
Open Scope string_scope.
Open Scope list_scope.
Open Scope nat_scope.

(** Schemas that correspond keyword by keyword, in whatever worlds, evaluate
    every instance to the same result: the same validity, paths, annotations
    and errors everywhere in the result tree, or the same exception. *)
Theorem C103_correspond : forall R W W' fuel s s' i,
  twins R W W' -> undynamic R W \/ same_scopes R W W' -> same_tools W W' -> R s s' -> same_outcome R (evaluate_root W fuel s i) (evaluate_root W' fuel s' i).
Proof. intros R W W' fuel s s' i T Sc S Hs. exact (evaluate_root_twin R W W' T Sc fuel s s' i S Hs). Qed.
Print Assumptions C103_correspond.

(** In particular the numbers of the objects do not matter. *)
Definition moved_json (n : nat) (j : kjson) : kjson :=
  match j with KJ v => KJ v | KSub t => KSub (n + t) | KSubs l => KSubs (map (Nat.add n) l) | KSubm m => KSubm (map (fun x => (fst x, n + snd x)) m) end.
Definition moved_kw (n : nat) (x : pystr * keyword) : pystr * keyword :=
  let k := snd x in (fst x, mkKw (kw_class k) (moved_json n (kw_json k)) (option_map (Nat.add n) (kw_ref k)) (kw_dynamic k) (kw_fragment k) (kw_format k)).
Definition moved_by (n : nat) (W : world) : world :=
  mkWorld (fun s => match w_schema W (s - n) with SBool b => SBool b | SObj kws => SObj (map (moved_kw n) kws) end) (fun s => w_base W (s - n))
    (fun b f => option_map (Nat.add n) (w_anchor W b f)) (w_search W) (w_repr W) (w_format W) (fun s => w_uri W (s - n)).
Theorem C103_renumbered : forall n W fuel s i,
  same_outcome (fun s s' => s' = n + s) (evaluate_root W fuel s i) (evaluate_root (moved_by n W) fuel (n + s) i).
Proof.
  intros n W fuel s i. assert (Sub : forall s, n + s - n = s) by (intro; lia). apply C103_correspond; [|right|repeat split|reflexivity].
  - split; [intros; lia|]. intros t t' ->. cbn [moved_by w_schema]. rewrite Sub. destruct (w_schema W t) as [b|kws]; [reflexivity|]. induction kws as [|[key k] kws IH]; constructor; [|exact IH].
    unfold twin_keyword. cbn [moved_kw fst snd kw_class kw_format kw_json kw_ref kw_dynamic kw_fragment]. repeat (split; [reflexivity|]). split; [|split; [|auto]].
    + destruct (kw_json k) as [v|x|l|m]; constructor; auto; [induction l|induction m]; constructor; auto.
    + intros _. unfold both_or_none. destruct (kw_ref k); cbn; auto.
  - split.
    + intros t t' x x' -> ->. cbn [moved_by w_base]. now rewrite !Sub.
    + intros t t' ->. cbn [moved_by w_base w_anchor]. rewrite Sub. destruct (w_base W t) as [b|]; [|exact I]. intro f. unfold both_or_none. destruct (w_anchor W b f); cbn; auto.
Qed.
Print Assumptions C103_renumbered.
(** A world with dynamic references, and its copy four places on. *)
Example C103_renumbered_case :
  w_schema (moved_by 4 dyn_world) 4 <> w_schema dyn_world 0 /\
  map (fun v => valid_of (evaluate_root dyn_world 9 0 (root v))) [obj [("a", text "t")]; obj [("a", JNull)]] = [Some true; Some false] /\
  map (fun v => valid_of (evaluate_root (moved_by 4 dyn_world) 9 4 (root v))) [obj [("a", text "t")]; obj [("a", JNull)]] = [Some true; Some false].
Proof.
  split; [|split; vm_compute; reflexivity]. intro H. apply (f_equal (fun x => match x with SObj kws => existsb (fun kk => match kw_json (snd kk), kw_ref (snd kk) with KSubm ((_, t) :: _), _ => Nat.ltb t 4 | KSub t, _ => Nat.ltb t 4 | _, Some t => Nat.ltb t 4 | _, None => false end) kws | _ => false end)) in H. vm_compute in H. discriminate H.
Qed.

(** Two schemas that one document describes, under one metaschema, evaluate
    alike if their references lead to the same places in the document, or to
    schemas elsewhere that correspond.  Dynamic references need the same
    anchors to be in scope.  Nothing else about the catalogs, the URIs or what
    surrounds the schemas matters. *)
Theorem C103_document : forall E c c' r r' m b u b' u' v up up' Q W W' fuel i,
  worked E c -> worked E c' -> made E (c_objs c) m b u v r up -> made E (c_objs c') m b' u' v r' up' ->
  shows W (c_objs c) -> shows W' (c_objs c') -> same_tools W W' ->
  twins Q W W' -> (forall s s' t t', Q s s' -> paired (c_objs c) (c_objs c') r r' t t' -> s <> t /\ s' <> t') ->
  same_references Q (c_objs c) (c_objs c') r r' ->
  let R := fun s s' => paired (c_objs c) (c_objs c') r r' s s' \/ Q s s' in
  undynamic R W \/ same_scopes R W W' -> same_outcome R (evaluate_root W fuel r i) (evaluate_root W' fuel r' i).
Proof.
  intros E c c' r r' m b u b' u' v up up' Q W W' fuel i Wk Wk' Md Md' Sw Sw' To Tq Ap Sr R Sc. apply C103_correspond; [|exact Sc|exact To|left; constructor].
  exact (twins_made E (c_objs c) (c_objs c') r r' m b u b' u' v up up' Q W W' (proj1 (worked_sane _ _ Wk)) (proj1 (worked_sane _ _ Wk')) Md Md' Sw Sw' Tq Ap Sr).
Qed.
Print Assumptions C103_document.

(** Without references, constructing a document twice gives schemas that
    evaluate alike, whatever was constructed before, and under whatever URI. *)
Theorem C103_plain : forall E f id u c s1 c1 f' id' u' c' s2 c2 v m W W' fuel i,
  reads_json E -> jwf v = true -> reference_free v -> reachable c -> reachable c' ->
  construct E f id v u m c = (Ok s1, c1) -> construct E f' id' v u' m c' = (Ok s2, c2) ->
  shows W (c_objs c1) -> shows W' (c_objs c2) -> same_tools W W' ->
  same_outcome (paired (c_objs c1) (c_objs c2) s1 s2) (evaluate_root W fuel s1 i) (evaluate_root W' fuel s2 i).
Proof.
  intros E f id u c s1 c1 f' id' u' c' s2 c2 v m W W' fuel i D J Rf R R' H H' Sw Sw' To.
  destruct (C55_made E f id v u m c s1 c1 D R J H) as [Md _]. destruct (C55_made E f' id' v u' m c' s2 c2 D R' J H') as [Md' _].
  assert (R1 : reachable c1) by (pose proof (reach_construct E f id v u m c R) as X; now rewrite H in X). assert (R2 : reachable c2) by (pose proof (reach_construct E f' id' v u' m c' R') as X; now rewrite H' in X).
  apply C103_correspond; [|left; exact (paired_undynamic _ _ _ _ _ _ _ _ _ _ _ _ _ _ Md Md' Sw (made_unreferring _ _ _ _ _ _ _ _ Md Rf))|exact To|constructor].
  exact (twins_plain E (c_objs c1) (c_objs c2) s1 s2 m _ _ _ _ v _ _ W W' (proj1 (BuildFacts.reachable_sane _ R1)) (proj1 (BuildFacts.reachable_sane _ R2)) Md Md' Sw Sw' (made_unreferring _ _ _ _ _ _ _ _ Md Rf)).
Qed.
Print Assumptions C103_plain.

(** Without references, an edited schema evaluates as the one constructed from
    the edited document. *)
Theorem C103_edited : forall E c m u v r p s key q e x c1,
  worked E c -> part_at E c m u v r p s -> (forall w, item_of e = Some w -> jwf w = true) -> amend_schema E s key q e c = (Ok x, c1) ->
  exists v', amended e (p ++ key :: map way_key q) v v' /\
    (reference_free v' -> forall c2 b2 u2 r2 up2 W W' fuel i, worked E c2 -> made E (c_objs c2) m b2 u2 v' r2 up2 ->
       shows W (c_objs c1) -> shows W' (c_objs c2) -> same_tools W W' ->
       same_outcome (paired (c_objs c1) (c_objs c2) r r2) (evaluate_root W fuel r i) (evaluate_root W' fuel r2 i)).
Proof.
  intros E c m u v r p s key q e x c1 Wk Pa J H. destruct (C102_edited E c m u v r p s key q e x c1 Wk Pa J H) as (v' & A & Md). exists v'. split; [exact A|].
  intros Rf c2 b2 u2 r2 up2 W W' fuel i Wk2 Md2 Sw Sw' To. assert (S1 : sane c1) by (pose proof (worked_sane E _ (work_edit E c m u v r p s key q e Wk Pa)) as S; now rewrite H in S).
  apply C103_correspond; [|left; exact (paired_undynamic _ _ _ _ _ _ _ _ _ _ _ _ _ _ Md Md2 Sw (made_unreferring _ _ _ _ _ _ _ _ Md Rf))|exact To|constructor].
  exact (twins_plain E (c_objs c1) (c_objs c2) r r2 m _ _ _ _ v' _ _ W W' (proj1 S1) (proj1 (worked_sane _ _ Wk2)) Md Md2 Sw Sw' (made_unreferring _ _ _ _ _ _ _ _ Md Rf)).
Qed.
Print Assumptions C103_edited.

Lemma shows_own objs : shows (objs_world objs) objs.
Proof. intros s o H. cbn [objs_world w_schema]. now rewrite H. Qed.
Lemma tools_own objs objs' : same_tools (objs_world objs) (objs_world objs'). Proof. repeat split. Qed.

(** [cabinet] constructed first of all, and under another URI after another
    schema: other objects, the same verdicts. *)
Definition crate : json := obj [("allOf", JArr [JBool true; obj [("minLength", int 2)]]); ("properties", obj [("p", obj [("type", text "string")])])].
Definition reference_names : list pystr := [lit "$ref"; lit "$dynamicRef"; lit "$recursiveRef"].
Fixpoint free_upto (n : nat) (v : json) : bool :=
  match n with
  | 0 => false
  | Datatypes.S n =>
      match v with
      | JArr l => forallb (free_upto n) l
      | JObj m => forallb (fun kx => negb (mem_str (fst kx) reference_names) && free_upto n (snd kx)) m
      | _ => true
      end
  end.
Lemma free_upto_free n : forall v, free_upto n v = true -> reference_free v.
Proof.
  induction n as [|n IH]; intros v H; [discriminate H|]. intros doc key Oc Hk Hin. inversion Oc as [|l y Hy Hy'|w k y Hy Hy']; subst; cbn [free_upto] in H; rewrite forallb_forall in H.
  - apply in_map_iff in Hin as ([k y] & X & Hin). cbn [fst] in X. subst k. specialize (H _ Hin). apply andb_true_iff in H as [H _]. apply negb_true_iff in H. cbn [fst] in H.
    change (In key reference_names) in Hk. apply mem_str_In in Hk. congruence.
  - exact (IH y (H y Hy) doc key Hy' Hk Hin).
  - specialize (H _ Hy). apply andb_true_iff in H as [_ H]. exact (IH y H doc key Hy' Hk Hin).
Qed.
Lemma crate_free : reference_free crate.
Proof. apply (free_upto_free 9). vm_compute. reflexivity. Qed.
Definition first103 := construct E102 9 default crate None (Some META) empty.
Definition second103 := construct E102 9 default crate (Some (ul_parse (e_lib E102) (lit "http://b/z"))) (Some META) cat102.
Definition outcome103 (x : res sid * cat) (v : json) : option (bool * nat) :=
  match fst x with Ok s => match evaluate_root (objs_world (c_objs (snd x))) 30 s (root v) with Ok r => Some (r_valid r, length (r_children r)) | _ => None end | _ => None end.
Example C103_case :
  (reads_json E102 /\ jwf crate = true /\ reference_free crate /\ reachable empty /\ reachable cat102) /\
  fst first103 = Ok 0 /\ fst second103 = Ok 5 /\
  outcome103 first103 (text "a") = Some (false, 1) /\ outcome103 second103 (text "a") = Some (false, 1) /\
  outcome103 first103 (obj [("p", int 1)]) = Some (false, 2) /\ outcome103 second103 (obj [("p", int 1)]) = Some (false, 2).
Proof.
  split. { split; [now apply shelf_reads|]. split; [reflexivity|]. split; [exact crate_free|]. split; [constructor|]. apply reach_construct. constructor. }
  repeat (split; [vm_compute; reflexivity|]). vm_compute. reflexivity.
Qed.

(** With references it does not hold.  A reference keeps leading to the schema
    that was there when it was resolved, also after another has been put in
    its place: the edited schema and the one constructed from the edited
    document then give different verdicts. *)
Definition drawer (t : string) : json :=
  obj [("$id", text "http://a/x"); ("$defs", obj [("y", obj [("type", text t)])]); ("properties", obj [("p", obj [("$ref", text "#/$defs/y")])])].
Definition stale103 : cat := snd (construct E102 9 default (drawer "string") None (Some META) empty).
Theorem C103_with_references_refuted : exists E c v m u key e c1 v' c2 i,
  worked E c /\ part_at E c m u v 0 [] 0 /\ amend_schema E 0 key [] e c = (Ok tt, c1) /\ amended e [key] v v' /\
  construct E 9 default v' None m empty = (Ok 0, c2) /\ says c1 i = Some false /\ says c2 i = Some true.
Proof.
  set (e := PutMember (lit "y") (obj [("type", text "integer")])).
  destruct (amend_schema E102 0 (lit "$defs") [] e stale103) as [x c1] eqn:H. assert (Hx : x = Ok tt) by (apply (f_equal fst) in H; cbn [fst] in H; rewrite <- H; vm_compute; reflexivity).
  destruct (construct E102 9 default (drawer "integer") None (Some META) empty) as [y c2] eqn:H2. assert (Hy : y = Ok 0) by (apply (f_equal fst) in H2; cbn [fst] in H2; rewrite <- H2; vm_compute; reflexivity). subst x y.
  exists E102, stale103, (drawer "string"), (Some META), (Some (e_uuid E102 0)), (lit "$defs"), e, c1, (drawer "integer"), c2, (obj [("p", int 1)]).
  split; [apply work_construct, work_start; constructor|]. split.
  { split; [|constructor]. refine (proj1 (C55_made E102 9 default (drawer "string") None (Some META) empty 0 stale103 _ _ _ _)); [now apply shelf_reads|constructor|reflexivity|].
    unfold stale103. destruct (construct E102 9 default (drawer "string") None (Some META) empty) as [x c'] eqn:H3. cbn [snd]. f_equal. apply (f_equal fst) in H3. cbn [fst] in H3. rewrite <- H3. vm_compute. reflexivity. }
  split; [exact H|]. split.
  { apply (ad_member e (lit "$defs") _ _ _ [(lit "$id", text "http://a/x")] [(lit "properties", obj [("p", obj [("$ref", text "#/$defs/y")])])]); [intros [X|[]]; discriminate X|].
    apply ad_here. apply (am_change (lit "y") _ _ [] []). intros []. }
  split; [exact H2|]. split.
  - replace c1 with (snd (amend_schema E102 0 (lit "$defs") [] e stale103)) by (now rewrite H). vm_compute. reflexivity.
  - replace c2 with (snd (construct E102 9 default (drawer "integer") None (Some META) empty)) by (now rewrite H2). vm_compute. reflexivity.
Qed.
Print Assumptions C103_with_references_refuted.
