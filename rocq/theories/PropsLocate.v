(** C62: the absolute location of a result. *)
From Coq Require Import String List Bool Lia.
From Verif Require Import SchemaCases QuoteFacts BuildStays Locate SpecWritten BuildGood HierFacts PropsBuild PropsWritten SchemaCases.
Import ListNotations.
Open Scope string_scope.
Open Scope list_scope.
Open Scope nat_scope.

Lemma quote_nonempty c s f : (c < 128)%N -> quote (c :: s) = Ok f -> f <> [].
Proof.
  intros C H. unfold quote in H. cbn [utf8_encode] in H. unfold utf8_encode1 in H. apply N.ltb_lt in C. rewrite C in H. destruct (utf8_encode s) as [bs|]; [|discriminate].
  injection H as <-. cbn [flat_map app]. unfold quote_byte. destruct (_ || _); discriminate.
Qed.
Lemma fragment_empty ks : uri_fragment ks = Ok [] -> ks = [].
Proof. destruct ks as [|k ks]; [reflexivity|]. unfold uri_fragment, pointer_str. cbn [flat_map app]. intro H. exfalso. now apply quote_nonempty in H. Qed.
Lemma sn_walk_same W W' : (forall s, w_schema W s = w_schema W' s) -> forall p n, sn_walk W n p = sn_walk W' n p.
Proof.
  intros H. assert (C : forall n k, sn_child W n k = sn_child W' n k) by (intros [s|v] k; [cbn [sn_child]; unfold schema_keywords; now rewrite H|reflexivity]).
  induction p as [|k p IH]; intro n; [reflexivity|]. cbn [sn_walk]. rewrite C. destruct (sn_child W' n k); cbn [bind]; auto.
Qed.
Lemma scalar_base objs : (forall i o p ks, nth_error objs i = Some o -> so_up o = Some (p, ks) -> Forall (Forall scalar) ks) ->
  forall n i ks r w ks', Forall (Forall scalar) ks -> canonical_base n objs i ks = Some (r, w, ks') -> Forall (Forall scalar) ks'.
Proof.
  intros Sc. induction n as [|n IH]; intros i ks r w ks' Hk B; [discriminate B|]. cbn [canonical_base] in B. destruct (nth_error objs i) as [o|] eqn:Ho; [|discriminate B].
  destruct (so_uri o) as [w1|] eqn:U; [injection B as <- <- <-; exact Hk|]. destruct (so_up o) as [[p up]|] eqn:Up; [|discriminate B].
  apply (IH p (up ++ ks)) in B; [exact B|]. apply Forall_app. split; [exact (Sc _ _ _ _ Ho Up)|exact Hk].
Qed.

(** The absolute URI of a result node is that of a schema of the document with
    a fragment that leads from there to the place the node stands for, for
    keys made of characters (without lone surrogates) and URIs without a
    non-empty fragment. *)
Theorem C62_absolute_location : forall E f id v u m c s c' d W fuel s0 i r n w,
  reads_json E -> reachable c -> jwf v = true -> construct E f id v u m c = (Ok s, c') ->
  (forall t o p ks, nth_error (c_objs c') t = Some o -> so_up o = Some (p, ks) -> Forall (Forall scalar) ks) ->
  (forall t o w, nth_error (c_objs c') t = Some o -> so_uri o = Some w -> u_frag w = None \/ u_frag w = Some []) ->
  shows c' W -> good_world d W -> evaluate_root W fuel s0 i = Ok r -> linked_by (fun _ => true) r n ->
  within (c_objs c') s (r_schema n) -> r_ref n = None -> Forall (Forall scalar) (r_relpath n) ->
  absolute_uri (c_objs c') n = Ok (Some w) ->
  exists q o wq fr ks sn,
    within (c_objs c') s q /\ nth_error (c_objs c') q = Some o /\ so_uri o = Some wq /\
    w = with_fragment wq fr /\ parse_uri_fragment fr = Ok ks /\
    sn_walk W (SNSchema q) ks = Ok sn /\ schema_node W n = Ok sn.
Proof.
  intros E f id v u m c s c' d W fuel s0 i r n w D R J H Sc Fr Sh G Ev L Wn Rn Sr Ab.
  destruct (construct_ok E D f id v u m c s c' (reachable_sane _ R) J H) as (S & _ & _ & Md & _).
  destruct (placed_below W r n (evaluate_root_placed d W fuel s0 i r G Ev) L) as (sn & Hn).
  assert (Eq : forall p x, sn_walk W x p = sn_walk (objs_world (c_objs c')) x p).
  { intros p x. apply sn_walk_same. intro t. now rewrite (proj1 Sh t). }
  unfold absolute_uri in Ab. rewrite Rn in Ab. unfold canonical_uri in Ab. set (objs := c_objs c') in *. set (t := r_schema n) in *.
  assert (At : sn_walk W (SNSchema t) (r_relpath n) = Ok sn) by exact Hn.
  destruct (nth_error objs t) as [o|] eqn:Ho; [|cbn [canonical_base] in Ab; rewrite Ho in Ab; discriminate Ab].
  destruct (so_uri o) as [wt|] eqn:Uo.
  - assert (Ab' : (let* rel := match u_frag wt with Some ((_ :: _) as f) => let* p := parse_uri_fragment f in Ok (p ++ r_relpath n) | _ => Ok (r_relpath n) end in
                   let* f := uri_fragment rel in Ok (Some (with_fragment wt f))) = Ok (Some w)) by (destruct o as [[?|] ? ? ? ?]; cbn in Uo; [injection Uo as <-; exact Ab|discriminate]).
    destruct (fragment_roundtrip (r_relpath n) Sr) as (fr & F1 & F2). exists t, o, wt, fr, (r_relpath n), sn.
    repeat (split; [assumption|]). split; [|auto].
    destruct (Fr t o wt Ho Uo) as [Q|Q]; rewrite Q in Ab'; cbn [bind] in Ab'; rewrite F1 in Ab'; cbn [bind] in Ab'; congruence.
  - destruct (canonical_base (Datatypes.S t) objs t []) as [[[q wq] ks]|] eqn:B.
    2:{ destruct o as [[?|] ? ? ? ?]; cbn in Uo; discriminate. }
    destruct (canonical_found E objs m None _ v s (proj1 S) Md t Wn (Datatypes.S t) [] (SNSchema t) (Nat.lt_succ_diag_r t) eq_refl q wq ks B) as (Wq & (oq & Hq & Uq) & Wk).
    pose proof (scalar_base objs Sc _ _ _ _ _ _ (Forall_nil _) B) as Sk.
    destruct (fragment_roundtrip ks Sk) as (f0 & F1 & F2).
    destruct (fragment_roundtrip (ks ++ r_relpath n) (proj2 (Forall_app _ _ _) (conj Sk Sr))) as (fr & F3 & F4).
    exists q, oq, wq, fr, (ks ++ r_relpath n), sn. repeat (split; [assumption|]).
    assert (Wr : sn_walk W (SNSchema q) (ks ++ r_relpath n) = Ok sn) by (rewrite sn_walk_app, Eq, Wk; exact At).
    split; [|auto].
    assert (Cn : (let* cu := (let* rel := Ok ks in let* f := uri_fragment rel in Ok (Some (with_fragment wq f))) in
        match cu with None => Ok None | Some u => let* rel := match u_frag u with Some ((_ :: _) as f) => let* p := parse_uri_fragment f in Ok (p ++ r_relpath n) | _ => Ok (r_relpath n) end in
                   let* f := uri_fragment rel in Ok (Some (with_fragment u f)) end) = Ok (Some w)).
    { destruct o as [[?|] ? ? ? ?]; cbn in Uo; [discriminate|]. destruct (Fr q oq wq Hq Uq) as [Q|Q]; rewrite Q in Ab; exact Ab. }
    cbn [bind] in Cn. rewrite F1 in Cn. cbn [bind with_fragment u_frag] in Cn. destruct f0 as [|a f0].
    + apply fragment_empty in F1. subst ks. cbn [app] in *. cbn [bind] in Cn. rewrite F3 in Cn. cbn [bind] in Cn. injection Cn as <-. reflexivity.
    + rewrite F2 in Cn. cbn [bind] in Cn. rewrite F3 in Cn. cbn [bind] in Cn. injection Cn as <-. reflexivity.
Qed.
Print Assumptions C62_absolute_location.

(** It has one, if the document has a URI. *)
Theorem C62_exists : forall E f id v u m c s c' n,
  reads_json E -> reachable c -> jwf v = true -> construct E f id v u m c = (Ok s, c') ->
  (exists o w, nth_error (c_objs c') s = Some o /\ so_uri o = Some w) ->
  (forall t o p ks, nth_error (c_objs c') t = Some o -> so_up o = Some (p, ks) -> Forall (Forall scalar) ks) ->
  (forall t o w, nth_error (c_objs c') t = Some o -> so_uri o = Some w -> u_frag w = None \/ u_frag w = Some []) ->
  within (c_objs c') s (r_schema n) -> (forall t, r_ref n = Some t -> within (c_objs c') s t) -> Forall (Forall scalar) (r_relpath n) ->
  exists w, absolute_uri (c_objs c') n = Ok (Some w).
Proof.
  intros E f id v u m c s c' n D R J H Us Sc Fr Wn Wr Sr. unfold absolute_uri. destruct (r_ref n) as [t|].
  { exact (C51_exists E f id v u m c s c' t D R J H (Wr t eq_refl) Us Fr Sc). }
  destruct (C51_exists E f id v u m c s c' (r_schema n) D R J H Wn Us Fr Sc) as (w & Cw). rewrite Cw. cbn [bind].
  assert (P : exists ks, Forall (Forall scalar) ks /\ (u_frag w = None \/ u_frag w = Some [] \/ exists a g, u_frag w = Some (a :: g) /\ parse_uri_fragment (a :: g) = Ok ks)).
  { unfold canonical_uri in Cw. set (objs := c_objs c') in *. set (t := r_schema n) in *.
    assert (Q : forall q wq ks, canonical_base (Datatypes.S t) objs t [] = Some (q, wq, ks) -> exists o, nth_error objs q = Some o /\ so_uri o = Some wq).
    { destruct (construct_ok E D f id v u m c s c' (reachable_sane _ R) J H) as (S & _ & _ & Md & _). intros q wq ks B.
      exact (proj1 (proj2 (canonical_found E objs m None _ v s (proj1 S) Md t Wn (Datatypes.S t) [] (SNSchema t) (Nat.lt_succ_diag_r t) eq_refl q wq ks B))). }
    assert (G : (match canonical_base (Datatypes.S t) objs t [] with None => Ok None | Some (_, u, ks) =>
             let* rel := match u_frag u with Some ((_ :: _) as f) => let* p := parse_uri_fragment f in Ok (p ++ ks) | _ => Ok ks end in
             let* f := uri_fragment rel in Ok (Some (with_fragment u f)) end) = Ok (Some w) ->
             exists ks, Forall (Forall scalar) ks /\ (u_frag w = None \/ u_frag w = Some [] \/ exists a g, u_frag w = Some (a :: g) /\ parse_uri_fragment (a :: g) = Ok ks)).
    { destruct (canonical_base (Datatypes.S t) objs t []) as [[[q wq] ks]|] eqn:B; [|discriminate].
      pose proof (scalar_base objs Sc _ _ _ _ _ _ (Forall_nil _) B) as Sk. destruct (Q q wq ks eq_refl) as (oq & Hq & Uq). destruct (fragment_roundtrip ks Sk) as (f0 & F1 & F2).
      intro X. exists ks. split; [exact Sk|]. destruct (Fr q oq wq Hq Uq) as [Z|Z]; rewrite Z in X; cbn [bind] in X; rewrite F1 in X; cbn [bind] in X; injection X as <-; cbn [with_fragment u_frag];
        (destruct f0 as [|a f0]; [tauto|right; right; eauto]). }
    destruct (nth_error objs t) as [o|] eqn:Ho; [|exact (G Cw)]. destruct o as [[w'|] ? ? ? ?]; [|exact (G Cw)].
    injection Cw as <-. exists []. split; [constructor|]. destruct (Fr t _ w' Ho eq_refl); tauto. }
  destruct P as (ks & Sk & P).
  destruct (fragment_roundtrip (ks ++ r_relpath n) (proj2 (Forall_app _ _ _) (conj Sk Sr))) as (f1 & F1 & _). destruct (fragment_roundtrip (r_relpath n) Sr) as (f2 & F2 & _).
  destruct P as [P|[P|(a & g & P & F)]]; rewrite P; cbn [bind]; [rewrite F2|rewrite F2|rewrite F; cbn [bind]; match goal with |- context [uri_fragment ?e] => change (uri_fragment e = Ok f1) in F1 end; rewrite F1]; cbn [bind]; eauto.
Qed.
Print Assumptions C62_exists.

(** A node of a reference has the canonical URI of its target. *)
Theorem C62_reference : forall objs n t, r_ref n = Some t -> absolute_uri objs n = canonical_uri objs t.
Proof. intros objs n t R. unfold absolute_uri. now rewrite R. Qed.
Print Assumptions C62_reference.

Fixpoint below (n : rnode) : list rnode := n :: flat_map (fun kc => below (snd kc)) (r_children n).
Definition located : json :=
  obj [("$id", text "http://a/root");
       ("properties", obj [("a/b", obj [("items", obj [("type", text "string")])]);
                           ("c", obj [("$id", text "http://a/inner"); ("prefixItems", JArr [JBool true; obj [("minimum", int 5)]])]);
                           ("d", obj [("$ref", text "#/properties/a~1b")])])].
Example C62_case :
  let r := construct E59 9 default located None (Some META) empty in
  let W := objs_world (c_objs (snd r)) in
  (exists d, good_world d W) /\ shows (snd r) W /\ fst r = Ok 0 /\
  (forall t o p ks, nth_error (c_objs (snd r)) t = Some o -> so_up o = Some (p, ks) -> Forall (Forall scalar) ks) /\
  (forall t o w, nth_error (c_objs (snd r)) t = Some o -> so_uri o = Some w -> u_frag w = None \/ u_frag w = Some []) /\
  match evaluate_root W 30 0 (root (obj [("a/b", JArr [int 1]); ("c", JArr [int 1; int 2]); ("d", JArr [])])) with
  | Ok n => map (absolute_uri (c_objs (snd r))) (below n) = map (fun x => Ok (Some (at_ x)))
      ["http://a/root#"; "http://a/root#/properties"; "http://a/root#/properties/a~1b"; "http://a/root#/properties/a~1b/items"; "http://a/root#/properties/a~1b/items/type";
       "http://a/root#/properties/c"; "http://a/inner#/prefixItems"; "http://a/inner#/prefixItems/0"; "http://a/inner#/prefixItems/1"; "http://a/inner#/prefixItems/1/minimum";
       "http://a/root#/properties/d"; "http://a/root#/properties/a~1b"; "http://a/root#/properties/a~1b/items"]
  | _ => False
  end.
Proof.
  cbv zeta. split; [|split; [split; intro; reflexivity|split; [vm_compute; reflexivity|]]].
  { exists dialect_2020_12. apply (C59_good_world false dialect_2020_12 avoided (snd (construct E59 9 default located None (Some META) empty))).
    - now left.
    - apply written_construct; [now apply shelf_speaks|reflexivity|vm_compute; reflexivity|apply written_empty].
    - split; intro; reflexivity. }
  assert (A : forallb (fun o => match so_up o with Some (_, ks) => forallb (forallb (fun x => N.leb x 55295)) ks | None => true end &&
                                match so_uri o with Some w => match u_frag w with Some (_ :: _) => false | _ => true end | None => true end)
                (c_objs (snd (construct E59 9 default located None (Some META) empty))) = true) by (vm_compute; reflexivity).
  rewrite forallb_forall in A. split; [|split; [|vm_compute; reflexivity]].
  - intros t o p ks Ho Up. specialize (A o (nth_error_In _ _ Ho)). rewrite Up in A. apply andb_true_iff in A. destruct A as [A _].
    apply Forall_forall. intros k Hk. rewrite forallb_forall in A. specialize (A k Hk). apply Forall_forall. intros x Hx. rewrite forallb_forall in A. left. apply N.leb_le. exact (A x Hx).
  - intros t o w Ho U. specialize (A o (nth_error_In _ _ Ho)). rewrite U in A. apply andb_true_iff in A. destruct A as [_ A]. destruct (u_frag w) as [[|]|]; [auto|discriminate A|auto].
Qed.
