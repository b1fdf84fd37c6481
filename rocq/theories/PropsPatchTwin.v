(** C105: a patched schema evaluates as one newly constructed. *)
From Coq Require Import String List Bool Lia.
From Verif Require Import PyIntFacts SpecTreeAny JTreeSim PointerFacts PropsLenient PatchFacts SchemaCases TwinMade PatchSpots ReadBackFacts PropsBuild EditSane PropsEdit PropsLookup PropsEval PropsTwin PropsSchemaPatch.
Import ListNotations.
Open Scope string_scope.
Open Scope list_scope.
Open Scope nat_scope.

(** What the operation makes of the document [v]; [p0] is where the schema it
    is called on is in it, [w] is the value there, and the path of the
    operation has the keys [p ++ [k]]. *)
Definition patch_gives (op : patching) (p0 p : list pystr) (k : pystr) (w v v' : json) : Prop :=
  match op with
  | PatchAdd a => exists q, reads_as w p q /\ spec_add text_reading (p0 ++ q ++ [k]) a v v'
  | PatchReplace a => exists q, reads_as w (p ++ [k]) q /\ rfc_replace (p0 ++ q) a v v'
  | PatchRemove => exists q, reads_as w (p ++ [k]) q /\ rfc_remove (p0 ++ q) v v'
  end.
Theorem C105_as_new : forall E c m u v d p0 r op path p k c1,
  worked E c -> part_at E c m u v d p0 r -> jwf v = true -> (forall a, value_of op = Some a -> jwf a = true) ->
  mk_pointer [path] = Ok (p ++ [k]) -> schema_patch E r op path [] c = (Ok [], c1) ->
  exists w v', refers v p0 w /\ patch_gives op p0 p k w v v' /\
    (reference_free v' -> forall c2 b2 u2 d2 up2 W W' fuel i, worked E c2 -> made E (c_objs c2) m b2 u2 v' d2 up2 ->
       shows W (c_objs c1) -> shows W' (c_objs c2) -> same_tools W W' ->
       same_outcome (paired (c_objs c1) (c_objs c2) d d2) (evaluate_root W fuel d i) (evaluate_root W' fuel d2 i)).
Proof.
  intros E c m u v d p0 r op path p k c1 Wk Pa J Ja MP H.
  assert (X : exists w v', refers v p0 w /\ patch_gives op p0 p k w v v' /\ made E (c_objs c1) m None u v' d None).
  { destruct op as [a| |a]; cbn [value_of] in Ja.
    - destruct (C105_add _ _ _ _ _ _ _ _ _ _ _ _ _ _ Wk Pa J (Ja a eq_refl) MP H) as (_ & w & q & v' & Fw & Rd & A & Md). exists w, v'. split; [exact Fw|]. split; [exists q; auto|exact Md].
    - destruct (C105_remove _ _ _ _ _ _ _ _ _ _ _ _ _ Wk Pa J MP H) as (w & Fw & [(_ & q & v' & Rd & A & Md)|(q & Rd & s & kws & _ & _ & _ & G & _)]); [|discriminate G].
      exists w, v'. split; [exact Fw|]. split; [exists q; auto|exact Md].
    - destruct (C105_replace _ _ _ _ _ _ _ _ _ _ _ _ _ _ Wk Pa J (Ja a eq_refl) MP H) as (_ & w & q & v' & Fw & Rd & A & Md). exists w, v'. split; [exact Fw|]. split; [exists q; auto|exact Md]. }
  destruct X as (w & v' & Fw & G & Md). exists w, v'. split; [exact Fw|]. split; [exact G|].
  intros Rf c2 b2 u2 d2 up2 W W' fuel i Wk2 Md2 Sw Sw' To.
  assert (S1 : sane c1) by (pose proof (worked_sane E _ (C105_worked E c m u v d p0 r op path Wk Pa)) as S; now rewrite H in S).
  apply C103_correspond; [|left; exact (paired_undynamic _ _ _ _ _ _ _ _ _ _ _ _ _ _ Md Md2 Sw (made_unreferring _ _ _ _ _ _ _ _ Md Rf))|exact To|constructor].
  exact (twins_plain E (c_objs c1) (c_objs c2) d d2 m _ _ _ _ v' _ _ W W' (proj1 S1) (proj1 (worked_sane _ _ Wk2)) Md Md2 Sw Sw' (made_unreferring _ _ _ _ _ _ _ _ Md Rf)).
Qed.
Print Assumptions C105_as_new.
(** [crate] with an item added to its allOf, and the document with that item
    constructed. *)
Definition crate_more : json := obj [("allOf", JArr [JBool true; obj [("minLength", int 2)]; obj [("maxLength", int 3)]]); ("properties", obj [("p", obj [("type", text "string")])])].
Definition cat105 : cat := snd first103.
Definition patched105 := schema_patch E102 0 (PatchAdd (obj [("maxLength", int 3)])) (PStr (lit "/allOf/-")) [] cat105.
Definition newly105 : cat := snd (construct E102 9 default crate_more None (Some META) empty).
Example C105_as_new_case :
  worked E102 cat105 /\ part_at E102 cat105 (Some META) (Some (e_uuid E102 0)) crate 0 [] 0 /\ jwf crate = true /\
  mk_pointer [PStr (lit "/allOf/-")] = Ok ([lit "allOf"] ++ [lit "-"]) /\ fst patched105 = Ok [] /\ reference_free crate_more /\
  map (says (snd patched105)) [text "a"; text "abc"; text "abcd"; obj [("p", int 1)]] = [Some false; Some true; Some false; Some false] /\
  map (says newly105) [text "a"; text "abc"; text "abcd"; obj [("p", int 1)]] = [Some false; Some true; Some false; Some false] /\
  says cat105 (text "abcd") = Some true.
Proof.
  split; [apply work_construct, work_start; constructor|]. split.
  { split; [|constructor]. refine (proj1 (C55_made E102 9 default crate None (Some META) empty 0 cat105 _ _ _ _)); [now apply shelf_reads|constructor|reflexivity|].
    unfold cat105, first103. destruct (construct E102 9 default crate None (Some META) empty) as [x c'] eqn:H3. cbn [snd]. f_equal. apply (f_equal fst) in H3. cbn [fst] in H3. rewrite <- H3. vm_compute. reflexivity. }
  split; [vm_compute; reflexivity|]. split; [vm_compute; reflexivity|]. split; [vm_compute; reflexivity|]. split; [apply (free_upto_free 9); vm_compute; reflexivity|].
  split; [vm_compute; reflexivity|]. split; vm_compute; reflexivity.
Qed.
