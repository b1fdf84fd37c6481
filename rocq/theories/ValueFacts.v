(** The values of the keywords that hold arrays of subschemas. *)
From Verif Require Import Schema SpecSchema.

Definition many_subs (c : stdclass) : bool := match c with KAllOf | KAnyOf | KOneOf | KPrefixItems => true | _ => false end.
Lemma value_subs k cl : value_ok k = true -> kw_class k = Std cl -> many_subs cl = true -> forall w, kw_json k <> KJ w.
Proof.
  intros V C M w E. unfold value_ok in V. rewrite C, E in V. destruct cl; try discriminate M; discriminate V.
Qed.
Lemma with_subs_inv v f c : (forall w, v <> KJ w) -> with_subs v f = Ok c -> exists l, v = KSubs l /\ f l = Ok c.
Proof. intro N. destruct v as [w| | |]; try discriminate; [now elim (N w)|eauto]. Qed.
Lemma with_prefix_inv v i f c : (forall w, v <> KJ w) -> with_prefix v i f = Ok c -> exists l, v = KSubs l /\ f l = Ok c.
Proof. intro N. destruct v as [w| | |]; try discriminate; [now elim (N w)|eauto]. Qed.
