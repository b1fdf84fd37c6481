(** Hierarchical output of the trees that evaluation returns. *)
From Coq Require Import List Bool Lia.
From Verif Require Export OutputFacts SchemaQuiet SchemaPlaced.
Import ListNotations.
Open Scope nat_scope.

Lemma placed_below W n m : placed W n -> linked_by (fun _ => true) n m -> exists sn, schema_node W m = Ok sn.
Proof.
  intros P L. induction L as [n _|n key c m _ Hc _ IH]; [destruct P as [n sn A _]; now exists sn|].
  apply IH. apply placed_kin in P. unfold kin in P. rewrite Forall_forall in P. exact (P _ Hc).
Qed.

Lemma hier_total uri W n : placed W n -> exists l, hier_visit uri W n = Ok l.
Proof.
  induction n as [n IH] using rnode_induction. intros P. destruct n as [k p rp s ip v a d an er rf cs]. inversion P as [? sn A C]; subst. cbn [r_children] in *.
  assert (Kids : forall f : rnode -> list json -> list json, exists l,
    (fix go (cs : list ((pystr * path) * rnode)) : res (list json) :=
       match cs with [] => Ok [] | (_, c) :: r => let* o := hier_visit uri W c in let* os := go r in Ok (f c o ++ os) end) cs = Ok l).
  { intro f. clear -IH C. induction IH as [|[key c] cs H _ IHcs]; [now exists []|]. inversion C as [|? ? Pc Pcs]; subst. cbn [snd] in *.
    destruct (H Pc) as (o & ->). destruct (IHcs Pcs) as (os & ->). cbn [bind]. eexists. reflexivity. }
  unfold at_ in A. cbn [hier_visit]. rewrite A. cbn [bind r_children r_valid]. destruct sn as [t|w].
  - destruct (Kids (fun c o => if Bool.eqb (r_valid c) v then o else [])) as (l & ->). cbn [bind]. eexists. reflexivity.
  - destruct (Kids (fun _ o => o)) as (l & ->). eexists. reflexivity.
Qed.

(** What the output says of the messages of the node's children. *)
Lemma noted_dget v k x : forall (cs : list ((pystr * path) * rnode)) d, dget k (fold_left (fun d kc => noted v (snd kc) d) cs d) = Some x ->
  dget k d = Some x \/ exists ck c, In (ck, c) cs /\ r_key c = Some k /\ msgval v c = x /\ x <> JNull.
Proof.
  induction cs as [|[ck c] cs IH]; intros d H; cbn [fold_left snd] in H; [now left|]. destruct (IH _ H) as [D|(ck' & c' & Hc & R)].
  - unfold noted in D. destruct (is_null (msgval v c)) eqn:N; [now left|]. destruct (r_key c) as [k'|] eqn:K; [|now left].
    rewrite dget_dset in D. destruct (str_eqb_spec k k') as [->|Ne]; [|now left]. right. exists ck, c. split; [now left|]. split; [exact K|].
    injection D as <-. split; [reflexivity|]. intro E. rewrite E in N. discriminate.
  - right. exists ck', c'. split; [now right|exact R].
Qed.
Lemma noted_kept v k : forall (cs : list ((pystr * path) * rnode)) d, dget k d <> None -> dget k (fold_left (fun d kc => noted v (snd kc) d) cs d) <> None.
Proof.
  induction cs as [|[ck c] cs IH]; intros d H; [exact H|]. cbn [fold_left snd]. apply IH. unfold noted. destruct (is_null _); [exact H|].
  destruct (r_key c) as [k'|]; [|exact H]. rewrite dget_dset. destruct (str_eqb k k'); [discriminate|exact H].
Qed.
Lemma noted_all v k ck c : forall (cs : list ((pystr * path) * rnode)) d, In (ck, c) cs -> r_key c = Some k -> msgval v c <> JNull -> dget k (fold_left (fun d kc => noted v (snd kc) d) cs d) <> None.
Proof.
  induction cs as [|[ck' c'] cs IH]; intros d H K N; [destruct H|]. cbn [fold_left snd]. destruct H as [[= -> ->]|H]; [|now apply IH].
  apply noted_kept. unfold noted. destruct (msgval v c) eqn:M; try congruence; cbn [is_null]; rewrite K, dget_dset_same; discriminate.
Qed.

Lemma hier_root_messages uri W n o : r_relpath n = [] -> out_hierarchical uri W n = Ok o ->
  field (list_name (r_valid n)) o = match fold_left (fun d kc => noted (r_valid n) (snd kc) d) (r_children n) [] with [] => None | m => Some (JObj m) end.
Proof.
  destruct n as [k p rp s ip v a d an er rf cs]. cbn [r_relpath r_valid r_children]. intros ->. unfold out_hierarchical.
  cbn [hier_visit schema_node sn_walk r_relpath r_schema bind r_children r_valid].
  match goal with |- bind (bind ?e _) _ = _ -> _ => destruct e as [l'|x|]; cbn [bind]; [|discriminate|discriminate] end.
  intros [= <-]. set (ms := fold_left _ cs []). unfold field, vfield. destruct l', ms, v; reflexivity.
Qed.
