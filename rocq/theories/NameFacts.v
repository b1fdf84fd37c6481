(** Classes of unknown keywords are made exactly for the names that
    [nameable] allows. *)
From Coq Require Import List Lia Bool NArith.
From Verif Require Import Keywords SpecNames.
Import ListNotations.

Lemma nameable_class key : if nameable key then name_class key = Ok (Unknown key) else exists e, name_class key = Exn e.
Proof.
  unfold nameable, name_class. destruct key as [|x key]; [eexists; reflexivity|]. cbn [str_eqb negb andb]. generalize (x :: key). intro l.
  assert (Q : forallb (fun c => (1 <=? c) && ((c <=? 55295) || (57344 <=? c)))%N l = negb (existsb surrogate l) && negb (existsb (N.eqb 0) l)).
  { clear. induction l as [|c l IH]; [reflexivity|]. cbn [forallb existsb]. rewrite IH. unfold surrogate.
    assert (A : (1 <=? c)%N = negb (0 =? c)%N) by (destruct (N.leb_spec 1 c), (N.eqb_spec 0 c); cbn; lia). rewrite A.
    assert (B : ((c <=? 55295) || (57344 <=? c))%N = negb ((55296 <=? c) && (c <=? 57343))%N) by (destruct (N.leb_spec c 55295), (N.leb_spec 57344 c), (N.leb_spec 55296 c), (N.leb_spec c 57343); cbn; lia).
    rewrite B. destruct (0 =? c)%N, ((55296 <=? c) && (c <=? 57343))%N, (existsb _ l), (existsb _ l); reflexivity. }
  rewrite Q. destruct (existsb surrogate l); [eexists; reflexivity|]. destruct (existsb (N.eqb 0) l); [eexists; reflexivity|reflexivity].
Qed.
Lemma std_nameable c : nameable (std_key c) = true.
Proof. destruct c; reflexivity. Qed.
