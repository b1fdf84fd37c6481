(** C75: evaluation of sound schemas raises nothing and returns the prescribed
    verdict. *)
From Coq Require Import String List Relations Lia.
From Verif Require Import SchemaSafe SchemaMain SchemaStrict SchemaCode SchemaAlike OrderFacts SchemaCases PropsSchema PropsCode PropsWhole.
Import ListNotations.
Open Scope string_scope.
Open Scope list_scope.
Open Scope nat_scope.

Theorem C75_raises_nothing : forall W d legacy fuel s i e,
  dialect legacy d -> good_world d W -> sound_world W -> finite_numbers (i_val i) = true ->
  evaluate_root W fuel s i <> Exn e.
Proof. intros W d legacy fuel s i e Hd Hg [Hs Hn] F. exact (evaluate_root_safe W d Hg Hs legacy Hd Hn fuel s i F e). Qed.
Print Assumptions C75_raises_nothing.

(** The result, once the fuel of the model suffices. *)
Definition returns (W : world) (s : sid) (i : inst) (r : rnode) : Prop :=
  exists N, forall fuel, N <= fuel -> evaluate_root W fuel s i = Ok r.

Theorem C75_returns : forall W d legacy s i,
  dialect legacy d -> good_world d W -> sound_world W -> guarded W -> finite_world W -> finite_numbers (i_val i) = true ->
  exists r, returns W s i r.
Proof.
  intros W d legacy s i Hd Hg Hs G Fw F. destruct (C30_terminates W Fw G s i) as (N & [r|e|] & Nf & H).
  - exists r, N. exact H.
  - exfalso. exact (C75_raises_nothing W d legacy N s i e Hd Hg Hs F (H N (le_n N))).
  - congruence.
Qed.
Print Assumptions C75_returns.

(** A verdict is prescribed, and evaluation returns it. *)
Theorem C75_decides : forall W d legacy s i,
  dialect legacy d -> good_world d W -> sound_world W -> guarded W -> finite_world W ->
  no_unevaluated W \/ no_misjudged W -> plain_dynamics W ->
  finite_numbers (i_val i) = true -> jwf (i_val i) = true ->
  exists r, returns W s i r /\ forall b, verdict W s (i_val i) b <-> b = r_valid r.
Proof.
  intros W d legacy s i Hd Hg Hs G Fw Hu Hp F Hw. destruct (C75_returns W d legacy s i Hd Hg Hs G Fw F) as (r & N & H).
  exists r. split; [now exists N|]. pose proof (C27_agrees_partial W d legacy N s i r Hd Hg Hu Hp Hw (H N (le_n N))) as V.
  intro b. split; [|now intros ->]. intro V'. exact (verdict_unique _ _ _ _ _ V' V).
Qed.
Print Assumptions C75_decides.

(** Without the conditions on keywords, it returns what SpecCode.v says. *)
Theorem C75_computes : forall W d legacy s i,
  dialect legacy d -> good_world d W -> sound_world W -> guarded W -> finite_world W ->
  finite_numbers (i_val i) = true -> jwf (i_val i) = true ->
  exists r n o, returns W s i r /\ code_judge W (code_choice W) n [] s (i_val i) = Some o /\ r_valid r = o_ok o.
Proof.
  intros W d legacy s i Hd Hg Hs G Fw F Hw. destruct (C75_returns W d legacy s i Hd Hg Hs G Fw F) as (r & N & H).
  destruct (C74_computes W d legacy N s i r Hd Hg Hw (H N (le_n N))) as (o & J & V). exists r, N, o. split; [now exists N|auto].
Qed.
Print Assumptions C75_computes.

(** Schemas written in another order both return, with the same verdict (C28). *)
Theorem C75_order : forall legacy d R R' W W' s i,
  dialect legacy d -> all_written d R -> all_written d R' -> built R W -> built R' W' ->
  same_surroundings W W' -> (forall t, reordered (R t) (R' t)) ->
  sound_world W -> guarded W -> finite_world W -> sound_world W' -> guarded W' -> finite_world W' ->
  finite_numbers (i_val i) = true -> jwf (i_val i) = true ->
  exists r r', returns W s i r /\ returns W' s i r' /\ r_valid r = r_valid r'.
Proof.
  intros legacy d R R' W W' s i Hd Hw Hw' Hb Hb' Hss Ho Hs G Fw Hs' G' Fw' F Hi.
  destruct (C75_returns W d legacy s i Hd (built_good d R W Hw Hb) Hs G Fw F) as (r & N & H).
  destruct (C75_returns W' d legacy s i Hd (built_good d R' W' Hw' Hb') Hs' G' Fw' F) as (r' & N' & H').
  exists r, r'. split; [now exists N|]. split; [now exists N'|].
  exact (C28_order legacy d R R' W W' N N' s i r r' Hd Hw Hw' Hb Hb' Hss Ho Hi (H N (le_n N)) (H' N' (le_n N'))).
Qed.
Print Assumptions C75_order.

(** ** Concrete cases. *)

(** Deciding [sound_world] for small worlds: there every expression compiles. *)
Definition objectb (l : list snode) (s : sid) : bool := match nth s l (SBool true) with SObj _ => true | _ => false end.
Definition soundb (l : list snode) : bool :=
  forallb (fun n => match n with
                    | SBool _ => true
                    | SObj kws => forallb (fun kv => typed (snd kv) && match kw_class (snd kv), kw_ref (snd kv) with
                                                                       | Std KRecursiveRef, Some t => objectb l t
                                                                       | _, _ => true
                                                                       end) kws
                    end) l.
Lemma sound_small l : soundb l = true -> guarded (small l) -> sound_world (small l).
Proof.
  intros H G. split; [|intros s I; apply (G s); now constructor]. intros s kws key k Ws Hk. cbn in Ws.
  assert (X : typed k && match kw_class k, kw_ref k with Std KRecursiveRef, Some t => objectb l t | _, _ => true end = true).
  { unfold soundb in H. rewrite forallb_forall in H. destruct (nth_in_or_default s l (SBool true)) as [I|I]; [|rewrite I in Ws; discriminate].
    rewrite Ws in I. specialize (H _ I). rewrite forallb_forall in H. exact (H _ Hk). }
  apply andb_true_iff in X. destruct X as [T A]. split; [exact T|]. split; [split; intros; discriminate|]. split; [intros b t _ _; discriminate|].
  intros t Hc Hr. rewrite Hc, Hr in A. unfold objectb in A. unfold is_object. cbn. destruct (nth t l (SBool true)); [discriminate|eauto].
Qed.

(** {"properties": {"a": {"$ref": "#/$defs/b"}}, "patternProperties": {"x": {"type": "integer"}}, "additionalProperties": false,
     "required": ["a"], "unevaluatedProperties": false,
     "$defs": {"b": {"prefixItems": [true], "items": {"$ref": "#"}, "contains": {"type": "integer"}, "minContains": 0, "unevaluatedItems": false}}}. *)
Definition busy : list snode :=
  let k := kw_in dialect_2020_12 in
  [ SObj [k "properties" (KSubm [(lit "a", 1)]); k "patternProperties" (KSubm [(lit "x", 3)]); k "additionalProperties" (KSub 5);
          k "required" (KJ (JArr [text "a"])); k "unevaluatedProperties" (KSub 5)];
    SObj [ref_in dialect_2020_12 "$ref" 2];
    SObj [k "prefixItems" (KSubs [4]); k "items" (KSub 6); k "contains" (KSub 3); k "minContains" (KJ (int 0)); k "unevaluatedItems" (KSub 5)];
    SObj [k "type" (KJ (text "integer"))]; SBool true; SBool false;
    SObj [ref_in dialect_2020_12 "$ref" 0] ].
Example C75_case :
  good_world dialect_2020_12 (small busy) /\ guarded (small busy) /\ sound_world (small busy) /\ finite_world (small busy) /\
  no_misjudged (small busy) /\ plain_dynamics (small busy) /\
  valid_of (evaluate_root (small busy) 20 0 (root (obj [("a", JArr [text "?"; obj [("a", JNull); ("x", int 3)]])]))) = Some true /\
  valid_of (evaluate_root (small busy) 20 0 (root (obj [("a", JArr [text "?"; obj [("a", JNull); ("y", int 3)]])]))) = Some false.
Proof.
  assert (G : guarded (small busy)) by (apply (guarded_small [0; 1; 0; 0; 0; 0; 1]); vm_compute; reflexivity).
  split; [apply good_small; vm_compute; reflexivity|]. split; [exact G|].
  split; [apply sound_small; [vm_compute; reflexivity|exact G]|]. split; [apply finite_small|].
  split; [apply no_misjudged_small; vm_compute; reflexivity|]. split; [apply plain_small; vm_compute; reflexivity|].
  split; vm_compute; reflexivity.
Qed.

(** ** The conditions are needed.  A schema that refers to itself, such as
    {"properties": {}, "additionalProperties": true, "$ref": "#"}, does not
    overflow the stack: the second time round, additionalProperties looks for
    its sibling's value under the path of the reference, and the pointer
    cannot be resolved. *)
Definition itself : list snode :=
  let k := kw_in dialect_2020_12 in
  [ SObj [k "properties" (KSubm []); k "additionalProperties" (KSub 1); ref_in dialect_2020_12 "$ref" 0]; SBool true ].
Theorem C75_itself_needed : exists l x,
  good_world dialect_2020_12 (small l) /\ soundb l = true /\ finite_numbers x = true /\
  forall fuel, 2 <= fuel -> evaluate_root (small l) fuel 0 (root x) = Exn EPointerReference.
Proof.
  exists itself, (JObj []). split; [apply good_small; vm_compute; reflexivity|]. split; [vm_compute; reflexivity|]. split; [reflexivity|].
  intros fuel L. destruct fuel as [|[|fuel]]; [lia|lia|]. vm_compute. reflexivity.
Qed.
Print Assumptions C75_itself_needed.
(** [type] cannot judge infinite numbers, which json.loads reads and the
    constructor accepts (validation.py:41). *)
Theorem C75_infinite_needed : exists l x e,
  good_world dialect_2020_12 (small l) /\ sound_world (small l) /\
  forall fuel, 1 <= fuel -> evaluate_root (small l) fuel 0 (root x) = Exn e.
Proof.
  exists [SObj [kw_in dialect_2020_12 "type" (KJ (text "integer"))]], (JNum (NInf false)). eexists.
  split; [apply good_small; vm_compute; reflexivity|].
  split; [apply sound_small; [vm_compute; reflexivity|apply (guarded_small [0]); vm_compute; reflexivity]|].
  intros fuel L. destruct fuel as [|fuel]; [lia|]. vm_compute. reflexivity.
Qed.
Print Assumptions C75_infinite_needed.

(** A limit that is infinite, which json.loads makes of 1e999, cannot be written
    into the error message, so that failing raises ValueError: here
    {"minimum": 1e999} and 5.  The instance is an ordinary number. *)
Theorem C75_finite_limit_needed : exists l x,
  good_world dialect_2020_12 (small l) /\ guarded (small l) /\ finite_numbers x = true /\
  (forall s kws key k, w_schema (small l) s = SObj kws -> In (key, k) kws ->
     k = snd (kw_in dialect_2020_12 "minimum" (KJ (JNum (NInf false)))) /\ compiles (small l) k /\ aimed (small l) k) /\
  (forall fuel, 1 <= fuel -> evaluate_root (small l) fuel 0 (root x) = Exn EValue) /\
  valid_of (evaluate_root (small l) 1 0 (root (text "no number"))) = Some true.
Proof.
  exists [SObj [kw_in dialect_2020_12 "minimum" (KJ (JNum (NInf false)))]], (int 5).
  split; [apply good_small; vm_compute; reflexivity|]. split; [apply (guarded_small [0]); vm_compute; reflexivity|]. split; [reflexivity|]. split.
  - intros [|[|s]] kws key k Hs Hk; [|discriminate Hs|destruct s; discriminate Hs].
    cbn in Hs. injection Hs as <-. destruct Hk as [Hk|[]]. injection Hk as <- <-. split; [reflexivity|]. split; split; intros; discriminate.
  - split; [|vm_compute; reflexivity]. intros fuel L. destruct fuel as [|fuel]; [lia|]. vm_compute. reflexivity.
Qed.
Print Assumptions C75_finite_limit_needed.
