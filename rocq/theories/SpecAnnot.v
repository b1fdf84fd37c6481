(** The annotation that each keyword leaves in the node of its result,
    following JSON Schema 2020-12 (Core, 10.2 to 11; Validation, 7 to 9) and
    2019-09 for items and additionalItems. *)
From Coq Require Import Sorting.Sorted.
From Verif Require Export SpecSchema.
Open Scope nat_scope.

Definition number (n : nat) : json := JNum (NInt (Z.of_nat n)).
Definition names (l : list pystr) : json := JArr (map JStr l).
(** The names of the members of an object. *)
Definition own_names (x : json) : list pystr := map fst (members x).
Definition listed (n : pystr) (l : list pystr) : bool := existsb (str_eqb n) l.

(** [a] is the annotation of keyword [k] for the instance [x], provided that
    the keyword is valid; null stands for no annotation. *)
Definition notes (W : world) (k : keyword) (x a : json) : Prop :=
  match kw_class k, kw_json k with
  | Unknown _, KJ v => a = v
  | Unknown _, _ => False
  (* the names of the subschemas that were applied *)
  | Std KDependentSchemas, KSubm m => a = names (filter (has x) (map fst m))
  (* the names of the members that were judged *)
  | Std KProperties, KSubm m => a = names (filter (fun n => listed n (map fst m)) (own_names x))
  | Std KPatternProperties, KSubm m =>
      exists l, a = names l /\ NoDup l /\
      forall n, In n l <-> In n (own_names x) /\ exists pattern, In pattern (map fst m) /\ w_search W pattern n = Some true
  | Std (KAdditionalProperties | KUnevaluatedProperties | KUnevaluatedProperties2019), _ =>
      exists keep, a = names (filter keep (own_names x))
  (* the largest index judged, or true for all of them *)
  | Std KPrefixItems, KSubs l =>
      a = match min (length l) (length (items x)) with
          | 0 => JNull
          | S n => if S n =? length (items x) then JBool true else number n
          end
  | Std KItems2019, KSubs l =>
      a = match min (length l) (length (items x)) with 0 => JNull | S n => number n end
  | Std KItems2019, KSub s =>
      match w_schema W s, items x with
      | SObj _, _ :: _ => a = JBool true
      | _, _ => a = JNull
      end
  (* true if an item was judged *)
  | Std (KItems | KAdditionalItems | KUnevaluatedItems | KUnevaluatedItems2019), _ =>
      a = JNull \/ (a = JBool true /\ items x <> [])
  (* the positions of the items that are accepted, in order *)
  | Std KContains, _ =>
      exists l, a = JArr (map number l) /\ StronglySorted lt l /\ Forall (fun n => n < length (items x)) l
  (* the value of the keyword *)
  | Std (KTitle | KDescription | KDefault | KDeprecated | KReadOnly | KWriteOnly | KExamples
         | KContentMediaType | KContentEncoding | KContentSchema | KFormat), KJ v => a = v
  | Std _, _ => a = JNull
  end.

(** The keywords that do nothing but annotate. *)
Definition announcing (k : keyword) : bool :=
  match kw_class k with
  | Unknown _ => true
  | Std (KTitle | KDescription | KDefault | KDeprecated | KReadOnly | KWriteOnly | KExamples | KContentMediaType | KContentEncoding) => true
  | _ => false
  end.
