(** C107, C108: pointers and URIs as keys of dicts. *)
From Coq Require Import ZArith String List Bool Lia Arith.Cantor.
From Verif Require Import CatalogFacts PointerFacts RelPointerFacts PropsPointer PropsRel Hashing SpecHashing.
Import ListNotations.
Open Scope string_scope.
Open Scope list_scope.
Open Scope nat_scope.

(** ** Dicts of keys whose hashes agree with their equality. *)
Section Dict.
Context {K V : Type}.
Variable hash : K -> Z.
Variable eqb : K -> K -> bool.
Variable same : K -> K -> Prop.
Hypothesis Heq : forall a b, eqb a b = true <-> same a b.
Hypothesis Hhash : forall a b, same a b -> hash a = hash b.
Hypothesis Hrefl : forall a, same a a.
Hypothesis Hsym : forall a b, same a b -> same b a.
Hypothesis Htrans : forall a b c, same a b -> same b c -> same a c.
Notation hits := (hits hash eqb).
Notation dict_get := (@dict_get K V hash eqb).
Notation dict_set := (@dict_set K V hash eqb).
Notation dict_pop := (@dict_pop K V hash eqb).

Lemma hits_same k k' : hits k k' = true <-> same k' k.
Proof.
  unfold Hashing.hits. rewrite andb_true_iff, Z.eqb_eq, Heq. split; [tauto|]. intro S. split; [exact (Hhash _ _ S)|exact S].
Qed.
Lemma hits_not k k' : hits k k' = false <-> ~ same k' k.
Proof. rewrite <- hits_same. destruct (hits k k'); split; congruence. Qed.

Lemma get_set_same k k' v d : same k' k -> dict_get k (dict_set k' v d) = Some v.
Proof.
  intro S. induction d as [|[a w] d IH]; cbn.
  - apply hits_same in S. now rewrite S.
  - destruct (hits k' a) eqn:A; cbn.
    + apply hits_same in A. assert (X : hits k a = true) by (apply hits_same; exact (Htrans _ _ _ A S)). now rewrite X.
    + apply hits_not in A. assert (X : hits k a = false) by (apply hits_not; intro Y; apply A; exact (Htrans _ _ _ Y (Hsym _ _ S))). now rewrite X.
Qed.
Lemma get_set_other k k' v d : ~ same k' k -> dict_get k (dict_set k' v d) = dict_get k d.
Proof.
  intro S. induction d as [|[a w] d IH]; cbn.
  - apply hits_not in S. now rewrite S.
  - destruct (hits k' a) eqn:A; cbn; [|now rewrite IH].
    apply hits_same in A. assert (X : hits k a = false) by (apply hits_not; intro Y; apply S; exact (Htrans _ _ _ (Hsym _ _ A) Y)). now rewrite X.
Qed.
Lemma get_pop_other k k' d : ~ same k' k -> dict_get k (dict_pop k' d) = dict_get k d.
Proof.
  intro S. induction d as [|[a w] d IH]; cbn; [reflexivity|]. destruct (hits k' a) eqn:A; cbn; [|now rewrite IH].
  apply hits_same in A. assert (X : hits k a = false) by (apply hits_not; intro Y; apply S; exact (Htrans _ _ _ (Hsym _ _ A) Y)). now rewrite X.
Qed.

(** No two entries have the same key. *)
Inductive apart : list (K * V) -> Prop :=
| apart_nil : apart []
| apart_cons k v d : (forall k' v', In (k', v') d -> ~ same k k') -> apart d -> apart ((k, v) :: d).
Lemma In_set k v d a w : In (a, w) (dict_set k v d) -> a = k \/ exists w', In (a, w') d.
Proof.
  induction d as [|[b u] d IH]; cbn; [intros [[= <- <-]|[]]; now left|].
  destruct (hits k b); intros [[= <- <-]|H]; eauto. destruct (IH H) as [->|(w' & X)]; eauto.
Qed.
Lemma In_pop k d a w : In (a, w) (dict_pop k d) -> In (a, w) d.
Proof. induction d as [|[b u] d IH]; cbn; [auto|]. destruct (hits k b); [auto|]. intros [E|H]; auto. Qed.
Lemma apart_set k v d : apart d -> apart (dict_set k v d).
Proof.
  induction 1 as [|a w d Ha Hd IH]; cbn; [constructor; [intros ? ? []|constructor]|]. destruct (hits k a) eqn:A; constructor; auto.
  intros k' v' H. apply In_set in H. destruct H as [->|(w' & H)]; [now apply hits_not in A|exact (Ha _ _ H)].
Qed.
Lemma apart_pop k d : apart d -> apart (dict_pop k d).
Proof.
  induction 1 as [|a w d Ha Hd IH]; cbn; [constructor|]. destruct (hits k a); [exact Hd|]. constructor; [|exact IH].
  intros k' v' H. exact (Ha _ _ (In_pop _ _ _ _ H)).
Qed.
Lemma apart_after h : apart (dict_after hash eqb h).
Proof. induction h as [|[k v|k] h IH]; cbn; [constructor|now apply apart_set|now apply apart_pop]. Qed.
Lemma get_none k d : (forall k' v', In (k', v') d -> ~ same k' k) -> dict_get k d = None.
Proof.
  induction d as [|[a w] d IH]; cbn; intro H; [reflexivity|]. assert (X : hits k a = false) by (apply hits_not, (H a w); now left). rewrite X.
  apply IH. intros k' v' I. apply (H k' v'). now right.
Qed.
Lemma get_pop_same k k' d : apart d -> same k' k -> dict_get k (dict_pop k' d) = None.
Proof.
  intros A S. induction A as [|a w d Ha Hd IH]; cbn; [reflexivity|]. destruct (hits k' a) eqn:E.
  - apply get_none. intros b u H Y. apply (Ha _ _ H). apply hits_same in E. exact (Htrans _ _ _ E (Htrans _ _ _ S (Hsym _ _ Y))).
  - cbn. apply hits_not in E. assert (X : hits k a = false) by (apply hits_not; intro Y; apply E; exact (Htrans _ _ _ Y (Hsym _ _ S))). now rewrite X.
Qed.

Lemma dict_holds h k v : dict_get k (dict_after hash eqb h) = Some v <-> holds_under same k h v.
Proof.
  assert (Dec : forall a b, same a b \/ ~ same a b) by (intros a b; rewrite <- Heq; destruct (eqb a b); [now left|now right]).
  revert v. induction h as [|[k' v'|k'] h IH]; intro v; cbn [dict_after].
  - split; [discriminate|intro X; inversion X].
  - destruct (Dec k' k) as [S|S].
    + rewrite (get_set_same _ _ _ _ S). split; [intros [= <-]; now constructor|]. intro X. inversion X; subst; [reflexivity|contradiction].
    + rewrite (get_set_other _ _ _ _ S), IH. split; [intro X; now constructor|]. intro X. inversion X; subst; [contradiction|assumption].
  - destruct (Dec k' k) as [S|S].
    + rewrite (get_pop_same _ _ _ (apart_after h) S). split; [discriminate|]. intro X. inversion X; subst. contradiction.
    + rewrite (get_pop_other _ _ _ S), IH. split; [intro X; now constructor|]. intro X. inversion X; subst. assumption.
Qed.
End Dict.

(** ** C107. *)
Theorem C107_pointer_equality : forall p q, pointer_eqb p q = true <-> pointer_str p = pointer_str q.
Proof.
  intros p q. unfold pointer_eqb. rewrite BaseFacts.strs_eqb_eq. split; [now intros ->|]. exact (C01_str_injective p q).
Qed.
Print Assumptions C107_pointer_equality.

Theorem C107_pointer_hash : forall H p q, pointer_eqb p q = true -> pointer_hash H p = pointer_hash H q.
Proof. intros H p q E. apply BaseFacts.strs_eqb_eq in E. now subst. Qed.
Print Assumptions C107_pointer_hash.

(** A dict keyed by pointers is one keyed by their texts. *)
Theorem C107_pointer_dict : forall H V (h : list (@dict_op pointer V)) p v,
  dict_get (pointer_hash H) pointer_eqb p (dict_after (pointer_hash H) pointer_eqb h) = Some v <->
  holds_under (fun a b => pointer_str a = pointer_str b) p h v.
Proof.
  intros H V h p v. apply dict_holds.
  - exact C107_pointer_equality.
  - intros a b E. apply C107_pointer_hash, C107_pointer_equality, E.
  - intros a b E. now symmetry.
  - intros a b c E1 E2. congruence.
Qed.
Print Assumptions C107_pointer_dict.

Theorem C107_rel_hash : forall H a b, rel_eqb a b = true -> rel_hash H a = rel_hash H b.
Proof. intros H a b E. apply C11_equality in E. destruct E as (E1 & E2 & E3 & E4). unfold rel_hash. now rewrite E1, E2, E3, E4. Qed.
Print Assumptions C107_rel_hash.

(** Relative pointers, made from texts or from numbers, are equal if their
    texts are the same. *)
Definition made_rel (r : relpointer) : Prop := (exists s, parse_rel s = Ok r) \/ exists up over ref, (0 <= up)%Z /\ r = mk_rel up over ref.
Lemma made_parses r : made_rel r -> parse_rel (rel_str r) = Ok r /\ exists up over ref, (0 <= up)%Z /\ r = mk_rel up over ref.
Proof.
  intros [(s & P)|(up & over & ref & U & ->)].
  - pose proof (C11_str_of_parse s r P) as Q. split; [now rewrite Q|].
    assert (F : fullmatch RELATIVE_JSON_POINTER_RE s = true) by (destruct (fullmatch RELATIVE_JSON_POINTER_RE s) eqn:F; [reflexivity|unfold parse_rel in P; rewrite F in P; discriminate]).
    apply full_cut in F as (u & o & rf & C). destruct (parse_rel_cut _ _ _ _ C) as (n & z & rr & _ & _ & _ & P').
    rewrite P in P'. injection P' as ->. exists (Z.of_N n), z, rr. split; [lia|reflexivity].
  - split; [now apply parse_rel_of_str|]. now exists up, over, ref.
Qed.
Theorem C107_rel_equality : forall a b, made_rel a -> made_rel b -> (rel_eqb a b = true <-> rel_str a = rel_str b).
Proof.
  intros a b Ma Mb. destruct (made_parses a Ma) as (Pa & ua & oa & ra & _ & Ea). destruct (made_parses b Mb) as (Pb & ub & ob & rb & _ & Eb). split.
  - intro E. apply C11_equality in E. destruct E as (E1 & E2 & E3 & E4). subst a b. cbn [mk_rel r_up r_over r_index r_path] in E1, E2, E3, E4. subst ub ob.
    destruct ra, rb; try discriminate; [injection E4 as ->|]; reflexivity.
  - intro E. rewrite E, Pb in Pa. injection Pa as ->. apply C11_equality. auto.
Qed.
Print Assumptions C107_rel_equality.

Theorem C107_rel_dict : forall H V (h : list (@dict_op relpointer V)) r v,
  dict_get (rel_hash H) rel_eqb r (dict_after (rel_hash H) rel_eqb h) = Some v <->
  holds_under (fun a b => rel_eqb a b = true) r h v.
Proof.
  intros H V h r v. apply dict_holds.
  - reflexivity.
  - exact (C107_rel_hash H).
  - intros a b. rewrite !C11_equality. intuition congruence.
  - intros a b c. rewrite !C11_equality. intuition congruence.
Qed.
Print Assumptions C107_rel_dict.

(** ** C108.  Without collisions, a dict of URIs tells them apart by their texts,
    whatever the package takes for equal: as the caches of Catalog.v do. *)
Definition no_collisions (H : hasher) : Prop := forall u v, uri_hash H u = uri_hash H v -> u = v.

Lemma uri_hits H L u u' : no_collisions H -> hits (uri_hash H) (uri_same L) u u' = uri_eqb u u'.
Proof.
  intro Hn. unfold hits. destruct (uri_eqb_spec u u') as [<-|N].
  - rewrite Z.eqb_refl. unfold uri_same. now destruct (uri_eqb_spec u u).
  - destruct (Z.eqb_spec (uri_hash H u') (uri_hash H u)) as [E|E]; [|reflexivity]. apply Hn in E. congruence.
Qed.
Theorem C108_by_text_partial : forall H L u s m, no_collisions H ->
  dict_get (uri_hash H) (uri_same L) u m = uget u m /\
  dict_set (uri_hash H) (uri_same L) u s m = uset u s m /\
  dict_pop (uri_hash H) (uri_same L) u m = udrop u m.
Proof.
  intros H L u s m Hn. repeat split; induction m as [|[a w] m IH]; cbn; rewrite ?(uri_hits H L u a Hn); try reflexivity; destruct (uri_eqb u a); congruence.
Qed.
Print Assumptions C108_by_text_partial.

(** URIs that are equal need not have the same hash, and a schema is not found
    under a URI that is equal to its own. *)
Definition upper_case : uri := parse_uri_reference (lit "HTTP://Example.com/a").
Definition lower_case : uri := parse_uri_reference (lit "http://example.com/a").
Theorem C108_refuted : ~ (forall H u v, uri_same rfc3986 u v = true -> uri_hash H u = uri_hash H v) /\
  forall H, no_collisions H -> uri_same rfc3986 upper_case lower_case = true /\
    dict_get (uri_hash H) (uri_same rfc3986) lower_case (dict_set (uri_hash H) (uri_same rfc3986) upper_case (7 : sid) []) = None.
Proof.
  assert (E : uri_same rfc3986 upper_case lower_case = true) by (vm_compute; reflexivity). split.
  - intro A. specialize (A (mkHasher (fun s => match s with c :: _ => Z.of_N c | [] => 0%Z end) (fun z => z) (fun _ => 0%Z) 0%Z (fun l => hd 0%Z l)) _ _ E).
    vm_compute in A. discriminate A.
  - intros H Hn. split; [exact E|]. refine (eq_trans (proj1 (C108_by_text_partial H rfc3986 lower_case 0 _ Hn)) _).
    refine (eq_trans (f_equal (uget lower_case) (proj1 (proj2 (C108_by_text_partial H rfc3986 upper_case 7 [] Hn)))) _). vm_compute. reflexivity.
Qed.
Print Assumptions C108_refuted.

(** There are hashes without collisions. *)
Fixpoint code (l : list nat) : nat := match l with [] => 0 | x :: l => S (Cantor.to_nat (x, code l)) end.
Lemma code_inj l : forall l', code l = code l' -> l = l'.
Proof.
  induction l as [|x l IH]; intros [|y l'] E; try discriminate; [reflexivity|]. cbn [code] in E. apply eq_add_S in E.
  apply (f_equal Cantor.of_nat) in E. rewrite !Cantor.cancel_of_to in E. injection E as -> E. f_equal. exact (IH _ E).
Qed.
Definition exact_hasher : hasher :=
  mkHasher (fun s => Z.of_nat (S (code (map N.to_nat s)))) (fun z => z) (fun b => if b then 1%Z else 0%Z) 0%Z (fun l => Z.of_nat (code (map Z.to_nat l))).
Lemma map_N_inj l : forall l', map N.to_nat l = map N.to_nat l' -> l = l'.
Proof. induction l as [|x l IH]; intros [|y l'] E; try discriminate; [reflexivity|]. cbn [map] in E. injection E as E1 E2. apply N2Nat.inj in E1. f_equal; auto. Qed.
Lemma exact_str a b : Z.to_nat (h_str exact_hasher a) = Z.to_nat (h_str exact_hasher b) -> a = b.
Proof. cbn [h_str exact_hasher]. rewrite !Nat2Z.id. intro E. injection E as E. apply map_N_inj, code_inj, E. Qed.
Lemma exact_part a b : Z.to_nat (hash_part exact_hasher a) = Z.to_nat (hash_part exact_hasher b) -> a = b.
Proof.
  destruct a as [a|], b as [b|]; unfold hash_part; [intro E; f_equal; now apply exact_str| | |reflexivity];
    cbn [h_str h_none exact_hasher]; rewrite Nat2Z.id; intro E; discriminate E.
Qed.
Lemma parts_same (a b : parts) : Rfc3986.p_scheme a = Rfc3986.p_scheme b -> Rfc3986.p_authority a = Rfc3986.p_authority b ->
  Rfc3986.p_path a = Rfc3986.p_path b -> Rfc3986.p_query a = Rfc3986.p_query b -> a = b.
Proof. destruct a, b. cbn. congruence. Qed.
Example C108_case : no_collisions exact_hasher /\
  dict_get (uri_hash exact_hasher) (uri_same rfc3986) upper_case [(lower_case, 3); (upper_case, 4)] = Some 4.
Proof.
  assert (N : no_collisions exact_hasher).
  { intros u v E. unfold uri_hash in E. cbn zeta in E. unfold h_tuple at 1 in E. cbn [exact_hasher] in E. fold exact_hasher in E.
    apply (f_equal Z.to_nat) in E. change (h_tuple exact_hasher) with (fun l => Z.of_nat (code (map Z.to_nat l))) in E. cbv beta in E. rewrite !Nat2Z.id in E.
    apply code_inj in E. cbn [map] in E.
    pose proof (f_equal (fun l => nth 0 l 0) E) as E1. pose proof (f_equal (fun l => nth 1 l 0) E) as E2. pose proof (f_equal (fun l => nth 2 l 0) E) as E3.
    pose proof (f_equal (fun l => nth 3 l 0) E) as E4. pose proof (f_equal (fun l => nth 4 l 0) E) as E5. cbn [nth] in E1, E2, E3, E4, E5.
    apply exact_part in E1, E2, E4, E5. apply exact_str in E3.
    destruct u as [bu fu], v as [bv fv]. cbn [u_base u_frag] in *. rewrite <- (join_split bu), <- (join_split bv).
    rewrite E5, (parts_same _ _ E1 E2 E3 E4). reflexivity. }
  split; [exact N|]. refine (eq_trans (proj1 (C108_by_text_partial exact_hasher rfc3986 upper_case 0 [(lower_case, 3); (upper_case, 4)] N)) _). vm_compute. reflexivity.
Qed.

(** A history of a dict of pointers: stored, stored again under an equal pointer
    made otherwise, another removed. *)
Definition weak_hasher : hasher := mkHasher (fun s => Z.of_nat (length s)) (fun z => z) (fun _ => 0%Z) 0%Z (fun l => Z.of_nat (length l)).
Definition ptr (s : string) : pointer := match parse_pointer (lit s) with Ok p => p | _ => [] end.
Example C107_case :
  let h := [DPop (ptr "/b"); DSet (ptr "/b") 3; DSet [lit "a/b"; lit "0"] 2; DSet (ptr "/a~1b/0") 1] in
  map (fun p => dict_get (pointer_hash weak_hasher) pointer_eqb p (dict_after (pointer_hash weak_hasher) pointer_eqb h)) [ptr "/b"; ptr "/a~1b/0"; ptr "/c"] = [None; Some 2; None].
Proof. vm_compute. reflexivity. Qed.
Example C107_rel_case :
  match parse_rel (lit "1-2/a"), parse_rel (lit "1-2#") with
  | Ok a, Ok b =>
      let c := mk_rel 1 (-2) (RefPath [lit "a"]) in
      made_rel a /\ made_rel b /\ made_rel c /\ rel_eqb a c = true /\ rel_str a = rel_str c /\ rel_eqb a b = false /\
      dict_get (rel_hash weak_hasher) rel_eqb c (dict_after (rel_hash weak_hasher) rel_eqb [DSet b 5; DSet a 4]) = Some 4
  | _, _ => False
  end.
Proof.
  destruct (parse_rel (lit "1-2/a")) as [a| |] eqn:A; [|vm_compute in A; discriminate|vm_compute in A; discriminate].
  destruct (parse_rel (lit "1-2#")) as [b| |] eqn:B; [|vm_compute in B; discriminate|vm_compute in B; discriminate].
  split; [left; eauto|]. split; [left; eauto|]. split; [right; exists 1%Z, (-2)%Z, (RefPath [lit "a"]); split; [lia|reflexivity]|].
  vm_compute in A, B. injection A as <-. injection B as <-. vm_compute. auto.
Qed.
