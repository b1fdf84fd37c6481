(** Evaluation computes the code judgement (theorem [evaluate_code] in
    SchemaMain.v):
    what is tracked, and the loops. *)
From Coq Require Import Permutation.
From Verif Require Export SchemaFacts.
Open Scope nat_scope.

Section Sim.
Variable W : world.
Variable legacy : bool.

(** ** What collected annotations say about evaluated members and items. *)
Definition tuple_key : pystr := if legacy then lit "items" else lit "prefixItems".
Definition rest_key : pystr := if legacy then lit "additionalItems" else lit "items".
Definition name_keys : list pystr :=
  [lit "properties"; lit "patternProperties"; lit "additionalProperties"; lit "unevaluatedProperties"].
Definition read_keys : list pystr := name_keys ++ [tuple_key; rest_key; lit "unevaluatedItems"; lit "contains"].

Definition ann (p : path) (key : pystr) (n : rnode) (a : json) : Prop :=
  In a (collect_annotations (Some p) (Some key) n).
Definition CName (p : path) (name : pystr) (n : rnode) : Prop :=
  exists key l, In key name_keys /\ ann p key n (JArr l) /\ mem_json (JStr name) l = true.
Definition CPlace (p : path) (k : nat) (n : rnode) : Prop :=
  ann p tuple_key n (JBool true) \/ ann p rest_key n (JBool true) \/
  ann p (lit "unevaluatedItems") n (JBool true) \/
  exists z, ann p tuple_key n (JNum (NInt z)) /\ (Z.of_nat k <= z)%Z.
Definition CFound (p : path) (k : nat) (n : rnode) : Prop :=
  exists l, ann p (lit "contains") n (JArr l) /\ mem_json (jint k) l = true.

Definition some (P : rnode -> Prop) (cs : list ((pystr * path) * rnode)) : Prop :=
  exists kc, In kc cs /\ P (snd kc).

(** Items that count as evaluated: 2019-09 ignores contains. *)
Definition CEval (p : path) (k : nat) (n : rnode) : Prop :=
  CPlace p k n \/ (legacy = false /\ CFound p k n).
Definition evaluated_at (o : outcome) : list nat := if legacy then o_places o else o_places o ++ o_found o.

Record Rel (p : path) (len : nat) (cs : list ((pystr * path) * rnode)) (o : outcome) : Prop := {
  rel_names : forall name, some (CName p name) cs <-> In name (o_names o);
  rel_places : forall k, k < len -> (some (CEval p k) cs <-> In k (evaluated_at o))
}.

(** The same for one keyword. *)
Record contributes (p : path) (len : nat) (c : rnode) (o : outcome) : Prop := {
  con_names : forall name, CName p name c <-> In name (o_names o);
  con_places : forall k, k < len -> (CEval p k c <-> In k (evaluated_at o))
}.

Lemma some_app P cs1 cs2 : some P (cs1 ++ cs2) <-> some P cs1 \/ some P cs2.
Proof.
  unfold some. split.
  - intros (kc & H & Hp). apply in_app_or in H. destruct H; [left|right]; eauto.
  - intros [(kc & H & Hp)|(kc & H & Hp)]; exists kc; (split; [apply in_or_app|]); auto.
Qed.
Lemma some_nil P : ~ some P [].
Proof. intros (kc & [] & _). Qed.

Lemma ann_invalid p key n a : r_valid n = false -> ~ ann p key n a.
Proof. unfold ann. rewrite collect_annotations_eq. intros ->. intros []. Qed.

Lemma ann_unfold p key n a : r_valid n = true -> r_discard n = false ->
  (ann p key n a <-> In a (own_annotation (Some p) (Some key) n) \/ some (fun c => ann p key c a) (r_children n)).
Proof.
  intros V D. unfold ann at 1. rewrite collect_annotations_eq, V, D. cbn [andb negb]. rewrite in_app_iff, in_flat_map.
  unfold some. split; (intros [H|(kc & H)]; [now left|right; exists kc; exact H]).
Qed.

(** A node whose own annotation is not of interest. *)
Definition transparent (n : rnode) : Prop :=
  r_annot n = JNull \/ match r_key n with Some k => ~ In k read_keys | None => True end.

Lemma transparent_own p key n : transparent n -> In key read_keys -> own_annotation (Some p) (Some key) n = [].
Proof.
  intros [H|H] K; unfold own_annotation.
  - now rewrite H.
  - destruct (r_key n) as [k|]; cbn [opt_str_eqb]; [|now rewrite andb_false_r].
    destruct (str_eqb_spec key k) as [->|]; [contradiction|]. now rewrite andb_false_r.
Qed.

Lemma read_name key : In key name_keys -> In key read_keys.
Proof. intro H. apply in_or_app. now left. Qed.
Lemma read_tuple : In tuple_key read_keys.
Proof. apply in_or_app. right. now left. Qed.
Lemma read_rest : In rest_key read_keys.
Proof. apply in_or_app. right. right. now left. Qed.
Lemma read_uneval : In (lit "unevaluatedItems") read_keys.
Proof. apply in_or_app. right. right. right. now left. Qed.
Lemma read_contains : In (lit "contains") read_keys.
Proof. apply in_or_app. right. right. right. right. now left. Qed.

Lemma ann_transparent p key n a : r_valid n = true -> r_discard n = false -> transparent n -> In key read_keys ->
  (ann p key n a <-> some (fun c => ann p key c a) (r_children n)).
Proof.
  intros V D T K. rewrite ann_unfold by assumption. rewrite transparent_own by assumption. cbn [In]. tauto.
Qed.

Lemma CName_transparent p name n : r_valid n = true -> r_discard n = false -> transparent n ->
  (CName p name n <-> some (CName p name) (r_children n)).
Proof.
  intros V D T. split.
  - intros (key & l & Hk & Ha & Hl). apply ann_transparent in Ha; auto using read_name.
    destruct Ha as (kc & Hc & Ha). exists kc. split; [exact Hc|]. exists key, l. auto.
  - intros (kc & Hc & key & l & Hk & Ha & Hl). exists key, l. split; [exact Hk|]. split; [|exact Hl].
    apply ann_transparent; auto using read_name. exists kc. auto.
Qed.
Lemma CPlace_transparent p k n : r_valid n = true -> r_discard n = false -> transparent n ->
  (CPlace p k n <-> some (CPlace p k) (r_children n)).
Proof.
  intros V D T. unfold CPlace at 1. rewrite !ann_transparent by auto using read_tuple, read_rest, read_uneval. split.
  - intros [(kc & Hc & Ha)|[(kc & Hc & Ha)|[(kc & Hc & Ha)|(z & Ha & Hz)]]].
    + exists kc. split; [exact Hc|]. now left.
    + exists kc. split; [exact Hc|]. right. now left.
    + exists kc. split; [exact Hc|]. right. right. now left.
    + apply ann_transparent in Ha; auto using read_tuple. destruct Ha as (kc & Hc & Ha).
      exists kc. split; [exact Hc|]. right. right. right. exists z. auto.
  - intros (kc & Hc & [Ha|[Ha|[Ha|(z & Ha & Hz)]]]).
    + left. exists kc. auto.
    + right. left. exists kc. auto.
    + right. right. left. exists kc. auto.
    + right. right. right. exists z. split; [|exact Hz]. apply ann_transparent; auto using read_tuple. exists kc. auto.
Qed.
Lemma CFound_transparent p k n : r_valid n = true -> r_discard n = false -> transparent n ->
  (CFound p k n <-> some (CFound p k) (r_children n)).
Proof.
  intros V D T. split.
  - intros (l & Ha & Hl). apply ann_transparent in Ha; auto using read_contains.
    destruct Ha as (kc & Hc & Ha). exists kc. split; [exact Hc|]. exists l. auto.
  - intros (kc & Hc & l & Ha & Hl). exists l. split; [|exact Hl].
    apply ann_transparent; auto using read_contains. exists kc. auto.
Qed.

Lemma CEval_transparent p k n : r_valid n = true -> r_discard n = false -> transparent n ->
  (CEval p k n <-> some (CEval p k) (r_children n)).
Proof.
  intros V D T. unfold CEval at 1. rewrite CPlace_transparent, CFound_transparent by assumption. split.
  - intros [(kc & Hc & H)|(L & kc & Hc & H)]; exists kc; (split; [exact Hc|]); [now left|now right].
  - intros (kc & Hc & [H|[L H]]); [left|right; split; [exact L|]]; exists kc; auto.
Qed.

Lemma CName_invalid p name n : r_valid n = false -> ~ CName p name n.
Proof. intros V (key & l & _ & Ha & _). now apply ann_invalid in Ha. Qed.
Lemma CPlace_invalid p k n : r_valid n = false -> ~ CPlace p k n.
Proof. intros V [Ha|[Ha|[Ha|(z & Ha & _)]]]; now apply ann_invalid in Ha. Qed.
Lemma CFound_invalid p k n : r_valid n = false -> ~ CFound p k n.
Proof. intros V (l & Ha & _). now apply ann_invalid in Ha. Qed.
Lemma CEval_invalid p k n : r_valid n = false -> ~ CEval p k n.
Proof. intros V [H|[_ H]]; [now apply CPlace_invalid in H|now apply CFound_invalid in H]. Qed.

Lemma evaluated_plain b : evaluated_at (plain b) = [].
Proof. unfold evaluated_at. now destruct legacy. Qed.

(** Children about deeper instances do not matter. *)
Definition deeper (p : path) (kc : (pystr * path) * rnode) : Prop :=
  exists q, q <> [] /\ under (p ++ q) (snd kc).

Lemma deeper_none p key a cs : Forall (deeper p) cs -> ~ some (fun c => ann p key c a) cs.
Proof.
  intros H (kc & Hc & Ha). rewrite Forall_forall in H. destruct (H kc Hc) as (q & Hq & U).
  unfold ann in Ha. now rewrite (collect_deeper p q) in Ha.
Qed.

Lemma deeper_under p cs : Forall (deeper p) cs -> Forall (fun kc => under p (snd kc)) cs.
Proof. apply Forall_impl. intros kc (q & _ & U). now apply under_deeper in U. Qed.

Lemma ann_own p key n a : r_valid n = true -> r_discard n = false -> r_inst n = p -> Forall (deeper p) (r_children n) ->
  (ann p key n a <-> a <> JNull /\ r_annot n = a /\ r_key n = Some key).
Proof.
  intros V D I H. rewrite ann_unfold by assumption. unfold own_annotation. rewrite I, strs_eqb_refl, andb_true_r.
  pose proof (deeper_none p key a _ H) as N. split.
  - intros [Ha|Ha]; [|contradiction]. destruct (r_key n) as [k|]; cbn [opt_str_eqb] in Ha.
    2: { now rewrite andb_false_r in Ha. }
    destruct (is_null (r_annot n)) eqn:E; cbn [negb andb] in Ha; [destruct Ha|].
    destruct (str_eqb_spec key k) as [->|]; [|destruct Ha]. destruct Ha as [<-|[]].
    repeat split. intro Z. now rewrite Z in E.
  - intros (Ha & E & K). left. rewrite K. cbn [opt_str_eqb]. rewrite str_eqb_refl, E.
    destruct a; cbn; tauto.
Qed.

Lemma contributes_nothing p len n b : r_inst n = p -> r_discard n = false -> Forall (deeper p) (r_children n) ->
  transparent n -> contributes p len n (plain b).
Proof.
  intros I D H T.
  assert (N : forall key a, In key read_keys -> ~ ann p key n a).
  { intros key a K Ha. destruct (r_valid n) eqn:V; [|now apply ann_invalid in Ha].
    apply ann_transparent in Ha; auto. exact (deeper_none _ _ _ _ H Ha). }
  constructor; rewrite ?evaluated_plain; cbn [plain o_names].
  - intro name. split; [|intros []]. intros (key & l & Hk & Ha & _). exact (N key _ (read_name _ Hk) Ha).
  - intros k _. split; [|intros []]. intros [[Ha|[Ha|[Ha|(z & Ha & _)]]]|(_ & l & Ha & _)]; exfalso;
      [exact (N _ _ read_tuple Ha)|exact (N _ _ read_rest Ha)|exact (N _ _ read_uneval Ha)|exact (N _ _ read_tuple Ha)|exact (N _ _ read_contains Ha)].
Qed.

(** ** The contract of evaluation. *)

(** The parts of a result node that evaluating a schema into it leaves alone. *)
Definition frame (n n' : rnode) : Prop :=
  r_key n' = r_key n /\ r_relpath n' = r_relpath n /\ r_schema n' = r_schema n /\ r_inst n' = r_inst n /\
  r_assert n' = r_assert n /\ r_discard n' = r_discard n /\ r_annot n' = r_annot n.

Lemma frame_refl n : frame n n.
Proof. repeat split. Qed.
Lemma frame_trans a b c : frame a b -> frame b c -> frame a c.
Proof. intros (A & B & C & D & E & F & G) (A' & B' & C' & D' & E' & F' & G'). repeat split; congruence. Qed.

Definition clean (p : path) (n : rnode) : Prop :=
  Forall (fun kc => snd (fst kc) <> p /\ r_inst (snd kc) <> p /\
                    forall key, collect_annotations (Some p) (Some key) (snd kc) = []) (r_children n).

(** relpath leads from the evaluating schema to [s], or to a plain value (the
    text of a reference). *)
Definition located (s : sid) (n : rnode) : Prop :=
  r_schema n = s -> forall sn, schema_node W n = Ok sn -> sn = SNSchema s \/ exists v, sn = SNJson (KJ v).

Definition pre (s : sid) (i : inst) (anc : list sid) (n : rnode) (scope : list sid) : Prop :=
  jwf (i_val i) = true /\ clean (i_path i) n /\ stutter (s :: r_schema n :: anc) (s :: scope) /\ located s n /\
  r_annot n = JNull /\ r_discard n = false.

Definition width (i : inst) : nat := length (items (i_val i)).

Definition post (i : inst) (n n' : rnode) (o : outcome) : Prop :=
  exists cs, frame n n' /\ r_children n' = r_children n ++ cs /\
  Forall (fun kc => snd (fst kc) = i_path i /\ r_inst (snd kc) = i_path i /\ under (i_path i) (snd kc)) cs /\
  r_valid n' = r_valid n && o_ok o /\
  (r_valid n = true -> Rel (i_path i) (width i) cs o).

Definition sim (ev : sid -> inst -> list sid -> rnode -> res rnode) (jd : list sid -> sid -> json -> option outcome) : Prop :=
  forall s i anc n scope n', pre s i anc n scope -> ev s i anc n = Ok n' ->
  exists o, jd scope s (i_val i) = Some o /\ post i n n' o.

(** ** Instances below an instance. *)
Lemma items_from_paths p l : forall k, map i_path (items_from p k l) = map (fun j => p ++ [str_of_nat j]) (seq k (length l)).
Proof. induction l as [|v l IH]; intro k; cbn [items_from map length seq i_path]; [reflexivity|]. now rewrite IH. Qed.
Lemma items_from_vals p l : forall k, map i_val (items_from p k l) = l.
Proof. induction l as [|v l IH]; intro k; cbn [items_from map i_val]; [reflexivity|]. now rewrite IH. Qed.

Lemma items_of_vals i : map i_val (items_of i) = items (i_val i).
Proof. unfold items_of, items. destruct (i_val i); try reflexivity. apply items_from_vals. Qed.
Lemma items_of_length i : length (items_of i) = width i.
Proof. unfold width. rewrite <- items_of_vals. now rewrite map_length. Qed.
Lemma items_of_paths i : map i_path (items_of i) = map (fun j => i_path i ++ [str_of_nat j]) (seq 0 (width i)).
Proof. unfold width, items_of, items. destruct (i_val i); try reflexivity. apply items_from_paths. Qed.

(** [j] is an instance directly below [i]. *)
Definition below (i j : inst) : Prop := (exists x, i_path j = i_path i ++ [x]) /\ jwf (i_val j) = true.

Lemma items_of_below i : jwf (i_val i) = true -> Forall (below i) (items_of i).
Proof.
  intro Hw. unfold items_of. destruct (i_val i) as [| | | |l|m]; try constructor. apply jwf_arr in Hw.
  generalize 0. induction Hw as [|v l Hv Hl IH]; intro k; cbn [items_from]; constructor; [|apply IH].
  split; [eexists; reflexivity|exact Hv].
Qed.
Lemma items_of_distinct i : NoDup (map i_path (items_of i)).
Proof.
  rewrite items_of_paths. apply FinFun.Injective_map_NoDup; [|apply seq_NoDup].
  intros a b E. apply app_inv_head in E. injection E as E. now apply str_of_nat_inj.
Qed.

Lemma members_of_names i : map fst (members_of i) = map fst (members (i_val i)).
Proof. unfold members_of, members. destruct (i_val i); try reflexivity. rewrite map_map. reflexivity. Qed.
Lemma members_of_vals i : map (fun ni => (fst ni, i_val (snd ni))) (members_of i) = members (i_val i).
Proof.
  unfold members_of, members. destruct (i_val i) as [| | | | |m]; try reflexivity. rewrite map_map. cbn [fst snd i_val].
  induction m as [|[k v] m IH]; cbn [map fst snd]; [reflexivity|]. now rewrite IH.
Qed.
Lemma members_of_below i : jwf (i_val i) = true ->
  Forall (fun ni => i_path (snd ni) = i_path i ++ [fst ni] /\ jwf (i_val (snd ni)) = true) (members_of i).
Proof.
  intro Hw. unfold members_of. destruct (i_val i) as [| | | | |m]; try constructor. apply jwf_obj in Hw. destruct Hw as [_ H].
  induction H as [|[k v] m Hv H IH]; cbn [map fst snd]; constructor; [|exact IH]. now split.
Qed.
Lemma members_of_distinct i : jwf (i_val i) = true -> NoDup (map fst (members_of i)).
Proof.
  intro Hw. rewrite members_of_names. unfold members. destruct (i_val i) as [| | | | |m]; try constructor.
  apply jwf_obj in Hw. apply Hw.
Qed.
Lemma members_of_paths i : jwf (i_val i) = true ->
  map i_path (map snd (members_of i)) = map (fun n => i_path i ++ [n]) (map fst (members_of i)).
Proof.
  intro Hw. pose proof (members_of_below i Hw) as H. induction H as [|[k v] m [Hv _] H IH]; cbn [map fst snd]; [reflexivity|].
  cbn [fst snd] in Hv. now rewrite IH, Hv.
Qed.

(** ** Loops, given that recursive evaluation keeps the contract. *)
Variable ev : sid -> inst -> list sid -> rnode -> res rnode.
Variable jd : list sid -> sid -> json -> option outcome.
Hypothesis Hsim : sim ev jd.

Variable s : sid.
Variable anck sc : list sid.
Hypothesis Hst : stutter (s :: anck) sc.

Lemma schema_node_frame n n' : frame n n' -> schema_node W n' = schema_node W n.
Proof. intros (_ & B & C & _). unfold schema_node. now rewrite B, C. Qed.

Lemma sn_walk_app p q : forall n, sn_walk W n (p ++ q) = (let* m := sn_walk W n p in sn_walk W m q).
Proof.
  induction p as [|k p IH]; intro n; cbn [sn_walk app bind]; [reflexivity|].
  destruct (sn_child W n k); cbn [bind]; auto.
Qed.

(** The keyword node [c] stands for keyword value [v]. *)
Definition stands (v : kjson) (c : rnode) : Prop :=
  r_schema c = s /\ forall sn, schema_node W c = Ok sn -> sn = sn_of v \/ exists w, sn = SNJson (KJ w).

Lemma stands_frame v c c' : frame c c' -> stands v c -> stands v c'.
Proof. intros F [A B]. split; [destruct F as (_ & _ & -> & _); exact A|]. rewrite (schema_node_frame _ _ F). exact B. Qed.

(** Following [key] from there leads to schema [t]. *)
Definition leads (v : kjson) (key : pystr) (t : sid) : Prop :=
  forall sn, sn_child W (sn_of v) key = Ok sn -> sn = SNSchema t.

Lemma leads_subs l k t : nth_error l k = Some t -> leads (KSubs l) (str_of_nat k) t.
Proof.
  intros H sn. cbn [sn_of sn_child]. unfold sn_index. rewrite py_int_str_of_nat.
  assert (L : k < length l) by (apply nth_error_Some; congruence).
  rewrite norm_index_nat by exact L. rewrite H. cbn [bind]. congruence.
Qed.
Lemma leads_subm m key t : dget key m = Some t -> leads (KSubm m) key t.
Proof. intros H sn. cbn [sn_of sn_child]. rewrite H. congruence. Qed.

Lemma located_child v key t i' result : stands v result -> leads v key t ->
  located t (new_child result key i' (r_schema result)).
Proof.
  intros [Hs Hn] Hl _ sn. unfold schema_node, new_child. cbn [r_schema r_relpath]. rewrite Nat.eqb_refl, sn_walk_app.
  unfold schema_node in Hn. destruct (sn_walk W (SNSchema (r_schema result)) (r_relpath result)) as [m| |]; cbn [bind]; try discriminate.
  cbn [sn_walk]. destruct (Hn m eq_refl) as [->|(w & ->)].
  - destruct (sn_child W (sn_of v) key) as [sn'| |] eqn:E; cbn [bind]; try discriminate. intros [= <-].
    left. now apply Hl.
  - destruct (sn_child W (SNJson (KJ w)) key) as [sn'| |] eqn:E; cbn [bind]; try discriminate. intros [= <-].
    right. cbn [sn_child] in E. destruct w as [| | | |l|m]; try discriminate.
    + destruct (sn_index key l); cbn [bind] in E; try discriminate. injection E as <-. eexists; reflexivity.
    + destruct (dget key m); try discriminate. injection E as <-. eexists; reflexivity.
Qed.

Lemma located_inplace v t c : stands v c -> (v = KSub t \/ exists w, v = KJ w) -> located t c.
Proof.
  intros [_ Hn] Hv _ sn E. destruct (Hn sn E) as [->|H]; [|now right].
  destruct Hv as [->|(w & ->)]; cbn [sn_of]; [now left|right; now exists w].
Qed.

(** Evaluating a schema straight into a node. *)
Lemma ev_inplace v t i c c' : jwf (i_val i) = true -> stands v c -> (v = KSub t \/ exists w, v = KJ w) ->
  clean (i_path i) c -> r_annot c = JNull -> r_discard c = false -> ev t i anck c = Ok c' -> exists o, jd sc t (i_val i) = Some o /\ post i c c' o.
Proof.
  intros Hw Hc Hv Hcl Ha Hd E. refine (Hsim t i anck c sc c' _ E). split; [exact Hw|]. split; [exact Hcl|].
  split; [|split; [exact (located_inplace v t c Hc Hv)|now split]]. rewrite (proj1 Hc). now apply st_cons.
Qed.

(** Evaluating a schema into a new child. *)
Lemma in_child_spec v key t i' result result' c : jwf (i_val i') = true -> stands v result -> leads v key t ->
  in_child ev result anck i' key t = Ok (result', c) ->
  exists o, jd sc t (i_val i') = Some o /\ post i' (new_child result key i' (r_schema result)) c o /\
            result' = put_child result key i' c.
Proof.
  intros Hw Hr Hl. unfold in_child.
  destruct (ev t i' (r_schema result :: anck) (new_child result key i' (r_schema result))) as [c'| |] eqn:E; cbn [bind]; try discriminate.
  intros [= <- <-].
  assert (Hpre : pre t i' (r_schema result :: anck) (new_child result key i' (r_schema result)) sc).
  { split; [exact Hw|]. split; [constructor|]. split; [|split; [exact (located_child v key t i' result Hr Hl)|now split]].
    cbn [new_child r_schema]. rewrite (proj1 Hr). apply st_cons, st_dup, Hst. }
  destruct (Hsim t i' _ _ sc c' Hpre E) as (o & Ho & P).
  exists o. split; [exact Ho|]. split; [exact P|].
  unfold close_child. destruct P as (cs & F & _). destruct F as (_ & _ & _ & _ & _ & -> & _). reflexivity.
Qed.

(** A finished subresult. *)
Definition sub_ok (i : inst) (kc : (pystr * path) * rnode) (o : outcome) : Prop :=
  snd (fst kc) = i_path i /\ under (i_path i) (snd kc) /\ r_annot (snd kc) = JNull /\ r_discard (snd kc) = false /\
  r_valid (snd kc) = o_ok o /\ passed (snd kc) = o_ok o /\
  Rel (i_path i) (width i) (r_children (snd kc)) o.

Lemma post_new_child result key i c o : post i (new_child result key i (r_schema result)) c o ->
  sub_ok i ((key, i_path i), c) o.
Proof.
  intros (cs & F & C & U & V & R). destruct F as (F1 & F2 & F3 & F4 & F5 & F6 & F7).
  cbn [new_child r_children r_valid r_inst r_assert r_discard r_annot app] in *.
  unfold sub_ok. cbn [fst snd]. split; [reflexivity|]. split.
  { apply under_eq. split; [exists []; now rewrite app_nil_r|]. rewrite C. revert U. apply Forall_impl. now intros kc (_ & _ & H). }
  split; [exact F7|]. split; [exact F6|]. split; [exact V|]. split; [unfold passed; rewrite V, F5; cbn; now rewrite orb_false_r|].
  rewrite C. now apply R.
Qed.

Lemma branches_spec v i : jwf (i_val i) = true -> forall l k result result' bs,
  stands v result ->
  (forall j t, nth_error l j = Some t -> leads v (str_of_nat (k + j)) t) ->
  (forall j, k <= j -> cget (str_of_nat j, i_path i) (r_children result) = None) ->
  branches ev i anck k l result = Ok (result', bs) ->
  exists os cs, all_some (map (fun t => jd sc t (i_val i)) l) = Some os /\ bs = map o_ok os /\
    result' = with_children result (r_children result ++ cs) /\ Forall2 (sub_ok i) cs os.
Proof.
  intro Hw. induction l as [|t l IH]; intros k result result' bs Hr Hl Hc; cbn [branches].
  { intros [= <- <-]. exists [], []. cbn [map all_some]. repeat split; [|constructor].
    destruct result. cbn. now rewrite app_nil_r. }
  destruct (in_child ev result anck i (str_of_nat k) t) as [[r1 c]| |] eqn:E; cbn [bind]; try discriminate.
  assert (Hl0 : leads v (str_of_nat k) t) by (specialize (Hl 0 t eq_refl); now rewrite Nat.add_0_r in Hl).
  destruct (in_child_spec v _ _ _ _ _ _ Hw Hr Hl0 E) as (o & Ho & P & ->).
  destruct (branches ev i anck (S k) l _) as [[r2 bs']| |] eqn:E2; cbn [bind]; try discriminate. intros [= <- <-].
  unfold put_child in E2. rewrite (cput_new _ _ _ (Hc k (le_n k))) in E2.
  assert (Hl1 : forall j u, nth_error l j = Some u -> leads v (str_of_nat (S k + j)) u).
  { intros j u Hj. specialize (Hl (S j) u Hj). now rewrite Nat.add_succ_r in Hl. }
  assert (Hc1 : forall j, S k <= j ->
    cget (str_of_nat j, i_path i) (r_children (with_children result (r_children result ++ [(str_of_nat k, i_path i, c)]))) = None).
  { intros j Hj. cbn [with_children r_children]. rewrite cget_app, (Hc j ltac:(lia)). cbn [cget].
    destruct (ckey_eqb_spec (str_of_nat j, i_path i) (str_of_nat k, i_path i)) as [X|X]; [|reflexivity].
    assert (Y : str_of_nat j = str_of_nat k) by congruence. apply str_of_nat_inj in Y. lia. }
  destruct (IH (S k) (with_children result _) _ _ Hr Hl1 Hc1 E2) as (os & cs & H1 & -> & -> & H2).
  exists (o :: os), (((str_of_nat k, i_path i), c) :: cs). cbn [map all_some]. rewrite Ho, H1.
  pose proof (post_new_child _ _ _ _ _ P) as Q. split; [reflexivity|]. split.
  { f_equal. apply Q. }
  split; [|now constructor]. cbn [with_children r_children r_key r_path r_relpath r_schema r_inst r_valid r_assert r_discard r_annot r_error r_ref].
  unfold with_children. cbn [r_children r_key r_path r_relpath r_schema r_inst r_valid r_assert r_discard r_annot r_error r_ref].
  now rewrite <- app_assoc.
Qed.

Lemma dependents_spec v i : jwf (i_val i) = true -> forall m result result' good bad,
  stands v result -> (forall name t, In (name, t) m -> leads v name t) -> NoDup (keys m) ->
  (forall name, In name (keys m) -> cget (name, i_path i) (r_children result) = None) ->
  dependents ev i anck m result = Ok (result', (good, bad)) ->
  exists os cs, all_some (map (fun nt => jd sc (snd nt) (i_val i)) (filter (fun nt => has_member i (fst nt)) m)) = Some os /\
    (bad = [] <-> forallb o_ok os = true) /\
    result' = with_children result (r_children result ++ cs) /\ Forall2 (sub_ok i) cs os.
Proof.
  intro Hw. induction m as [|[name t] m IH]; intros result result' good bad Hr Hl Nd Hc; cbn [dependents].
  { intros [= <- <- <-]. exists [], []. cbn [filter map all_some forallb]. repeat split; [|constructor].
    destruct result. cbn. now rewrite app_nil_r. }
  cbn [keys map fst] in Nd. inversion Nd; subst. cbn [filter fst].
  destruct (has_member i name) eqn:Hm.
  2: { intro E. apply IH in E; auto. - intros. apply Hl. now right. - intros. apply Hc. now right. }
  destruct (in_child ev result anck i name t) as [[r1 c]| |] eqn:E; cbn [bind]; try discriminate.
  destruct (in_child_spec v _ _ _ _ _ _ Hw Hr (Hl name t (or_introl eq_refl)) E) as (o & Ho & P & ->).
  destruct (dependents ev i anck m _) as [[r2 [good' bad']]| |] eqn:E2; cbn [bind]; try discriminate. intro X.
  unfold put_child in E2. rewrite (cput_new _ _ _ (Hc name ltac:(now left))) in E2.
  assert (Hc1 : forall n, In n (keys m) ->
    cget (n, i_path i) (r_children (with_children result (r_children result ++ [(name, i_path i, c)]))) = None).
  { intros n Hn. cbn [with_children r_children]. rewrite cget_app, (Hc n (or_intror Hn)). cbn [cget].
    destruct (ckey_eqb_spec (n, i_path i) (name, i_path i)) as [Y|Y]; [|reflexivity]. injection Y as Y. subst. contradiction. }
  destruct (IH (with_children result _) _ _ _ Hr (fun n u Hn => Hl n u (or_intror Hn)) H2 Hc1 E2) as (os & cs & K1 & K2 & K3 & K4).
  pose proof (post_new_child _ _ _ _ _ P) as Q.
  assert (Qp : passed c = o_ok o) by apply Q.
  exists (o :: os), (((name, i_path i), c) :: cs). cbn [map all_some snd forallb]. rewrite Ho, K1.
  split; [reflexivity|]. injection X as <- X. rewrite Qp in X. split.
  { destruct (o_ok o); injection X as <- <-; cbn [andb]; [exact K2|]. split; discriminate. }
  split; [|now constructor]. rewrite K3. unfold with_children.
  cbn [r_children r_key r_path r_relpath r_schema r_inst r_valid r_assert r_discard r_annot r_error r_ref].
  now rewrite <- app_assoc.
Qed.

(** What the accepting branches have evaluated. *)
Lemma branches_places i cs os : Forall2 (sub_ok i) cs os -> forall k, k < width i ->
  (some (CEval (i_path i) k) cs <-> In k (flat_map evaluated_at (filter o_ok os))).
Proof.
  intros H k Hk. induction H as [|kc o cs os Hc H IH]; [cbn; split; [intro X; now apply some_nil in X|intros []]|].
  change (kc :: cs) with ([kc] ++ cs). rewrite some_app, IH.
  destruct Hc as (_ & _ & A & D & V & _ & R). cbn [filter]. destruct (o_ok o).
  - cbn [flat_map]. rewrite in_app_iff, <- (rel_places _ _ _ _ R k Hk), <- CEval_transparent by (auto; left; assumption).
    unfold some at 1. split; (intros [H0|H0]; [left|now right]).
    + destruct H0 as (kc' & [<-|[]] & H0). exact H0.
    + exists kc. split; [now left|exact H0].
  - split; [|auto]. intros [(kc' & [<-|[]] & H0)|H0]; [|exact H0]. exfalso. exact (CEval_invalid _ _ _ V H0).
Qed.

Lemma branches_names i cs os : Forall2 (sub_ok i) cs os -> forall name,
  (some (CName (i_path i) name) cs <-> In name (flat_map o_names (filter o_ok os))).
Proof.
  intros H name. induction H as [|kc o cs os Hc H IH]; [cbn; split; [intro X; now apply some_nil in X|tauto]|].
  change (kc :: cs) with ([kc] ++ cs). rewrite some_app, IH.
  destruct Hc as (_ & _ & A & D & V & _ & R). cbn [filter]. destruct (o_ok o).
  - cbn [flat_map]. rewrite in_app_iff, <- (rel_names _ _ _ _ R name), <- CName_transparent by (auto; left; assumption).
    unfold some at 1. split; (intros [H0|H0]; [left|now right]).
    + destruct H0 as (kc' & [<-|[]] & H0). exact H0.
    + exists kc. split; [now left|exact H0].
  - split; [|auto]. intros [(kc' & [<-|[]] & H0)|H0]; [|exact H0]. exfalso. exact (CName_invalid _ _ _ V H0).
Qed.

Lemma evaluated_gather b os k : In k (evaluated_at (gather b os)) <-> In k (flat_map evaluated_at (filter o_ok os)).
Proof.
  unfold evaluated_at, gather. destruct legacy; cbn [o_places o_found]; [reflexivity|].
  rewrite in_app_iff, !in_flat_map. split.
  - intros [(o & Ho & H)|(o & Ho & H)]; exists o; (split; [exact Ho|]); apply in_or_app; auto.
  - intros (o & Ho & H). apply in_app_or in H. destruct H as [H|H]; [left|right]; exists o; auto.
Qed.

Lemma branches_rel i cs os b : Forall2 (sub_ok i) cs os -> Rel (i_path i) (width i) cs (gather b os).
Proof.
  intros H. constructor.
  - now apply branches_names.
  - intros k Hk. rewrite evaluated_gather. now apply branches_places.
Qed.

Lemma contributes_rel p len c o : r_valid c = true -> r_discard c = false -> transparent c ->
  Rel p len (r_children c) o -> contributes p len c o.
Proof.
  intros V D T [A B]. constructor.
  - intro name. now rewrite CName_transparent, A.
  - intros k Hk. now rewrite CEval_transparent, B.
Qed.

(** One schema for several instances, into one node. *)
Lemma collect_apart p x y q q' key n : p ++ [x] <> p ++ [y] -> under q n -> q' = p ++ [y] -> q = p ++ [x] ->
  collect_annotations (Some q') (Some key) n = [].
Proof.
  intros N U -> ->. revert U. induction n as [n IH] using rnode_induction. intro U. rewrite under_eq in U. destruct U as [[r Hr] U].
  rewrite collect_annotations_eq. destruct (r_valid n && negb (r_discard n)); [|reflexivity].
  replace (own_annotation (Some (p ++ [y])) (Some key) n) with (@nil json).
  2: { unfold own_annotation. destruct (strs_eqb_spec (p ++ [y]) (r_inst n)) as [E|]; [|now rewrite andb_false_r].
       exfalso. apply N. rewrite Hr, <- !app_assoc in E. apply app_inv_head in E. cbn in E. injection E as E _. now rewrite E. }
  cbn [app]. induction (r_children n) as [|kc cs IHcs]; [reflexivity|].
  inversion U as [|? ? U1 U2]; inversion IH as [|? ? IH1 IH2]; subst. cbn [flat_map]. rewrite IHcs by assumption.
  now rewrite IH1.
Qed.

Lemma clean_app p n n' cs : r_children n' = r_children n ++ cs -> clean p n ->
  Forall (fun kc => snd (fst kc) <> p /\ r_inst (snd kc) <> p /\
                    forall key, collect_annotations (Some p) (Some key) (snd kc) = []) cs -> clean p n'.
Proof. unfold clean. intros -> H1 H2. now apply Forall_app. Qed.

Lemma each_spec v t p : (v = KSub t \/ exists w, v = KJ w) -> forall l result result' bs,
  Forall (fun j => (exists x, i_path j = p ++ [x]) /\ jwf (i_val j) = true) l -> NoDup (map i_path l) ->
  Forall (fun j => clean (i_path j) result) l ->
  stands v result -> r_annot result = JNull -> r_discard result = false ->
  r_valid result = true -> r_assert result = true -> Forall (deeper p) (r_children result) ->
  each ev t anck l result = Ok (result', bs) ->
  exists os, judge_all jd sc t (map i_val l) = Some os /\ bs = map o_ok os /\ frame result result' /\
    r_valid result' = true /\ Forall (deeper p) (r_children result').
Proof.
  intro Hv. induction l as [|j l IH]; intros result result' bs Hb Hnd Hcl Hr An Di V A D; cbn [each].
  { intros [= <- <-]. exists []. cbn. auto using frame_refl. }
  inversion Hb as [|? ? [(x0 & Hp) Hw] Hb']; inversion Hcl as [|? ? Hcl1 Hcl2]; inversion Hnd as [|? ? Hnd1 Hnd2]; subst.
  destruct (ev t j anck result) as [r1| |] eqn:E; cbn [bind]; try discriminate.
  destruct (ev_inplace v t j result r1 Hw Hr Hv Hcl1 An Di E) as (o & Ho & cs & F & C & U & V1 & _).
  destruct (each ev t anck l _) as [[r2 bs']| |] eqn:E2; cbn [bind]; try discriminate. intros [= <- <-].
  rewrite V in V1. cbn [andb] in V1.
  assert (P1 : passed r1 = o_ok o).
  { unfold passed. destruct F as (_ & _ & _ & _ & F5 & _). rewrite F5, A, V1. cbn. now rewrite orb_false_r. }
  assert (F1 : frame result (if passed r1 then r1 else pass_ r1)).
  { destruct (passed r1); [exact F|]. destruct F as (F1 & F2 & F3 & F4 & F5 & F6 & F7). repeat split; assumption. }
  assert (C1 : r_children (if passed r1 then r1 else pass_ r1) = r_children result ++ cs).
  { destruct (passed r1); [exact C|]. exact C. }
  set (r1' := if passed r1 then r1 else pass_ r1) in *.
  assert (Cl1 : Forall (fun j' => clean (i_path j') r1') l).
  { rewrite Forall_forall in Hcl2, Hb' |- *. intros j' Hj'. apply (clean_app (i_path j') _ _ cs C1 (Hcl2 j' Hj')).
    revert U. apply Forall_impl. intros kc (U1 & U2 & U3). destruct (Hb' j' Hj') as [(x1 & Hp1) _].
    assert (N : i_path j <> i_path j') by (intro X; apply Hnd1; rewrite X; now apply in_map).
    rewrite U1, U2. split; [exact N|]. split; [exact N|]. intro key. apply (collect_apart p x0 x1 (i_path j)); [congruence|exact U3|exact Hp1|exact Hp]. }
  assert (V1' : r_valid r1' = true).
  { unfold r1'. rewrite P1. destruct (o_ok o); [exact V1|reflexivity]. }
  assert (An1 : r_annot r1' = JNull) by (destruct F1 as (_ & _ & _ & _ & _ & _ & F7); now rewrite F7).
  assert (Di1 : r_discard r1' = false) by (destruct F1 as (_ & _ & _ & _ & _ & F6 & _); now rewrite F6).
  assert (A1' : r_assert r1' = true) by (destruct F1 as (_ & _ & _ & _ & F5 & _); now rewrite F5).
  assert (D1' : Forall (deeper p) (r_children r1')).
  { rewrite C1. apply Forall_app. split; [exact D|]. revert U. apply Forall_impl. intros kc (_ & _ & U). exists [x0].
    split; [discriminate|now rewrite <- Hp]. }
  destruct (IH _ _ _ Hb' Hnd2 Cl1 (stands_frame _ _ _ F1 Hr) An1 Di1 V1' A1' D1' E2) as (os & H1 & -> & F2 & V2 & D2).
  exists (o :: os). unfold judge_all in *. cbn [map all_some]. rewrite Ho, H1, P1. split; [reflexivity|]. split; [reflexivity|].
  split; [exact (frame_trans _ _ _ F1 F2)|]. auto.
Qed.

Lemma each_noreset_spec v t p : (v = KSub t \/ exists w, v = KJ w) -> forall l result result',
  Forall (fun j => (exists x, i_path j = p ++ [x]) /\ jwf (i_val j) = true) l -> NoDup (map i_path l) ->
  Forall (fun j => clean (i_path j) result) l ->
  stands v result -> r_annot result = JNull -> r_discard result = false -> Forall (deeper p) (r_children result) ->
  each_noreset ev t anck l result = Ok result' ->
  exists os, judge_all jd sc t (map i_val l) = Some os /\ frame result result' /\
    r_valid result' = r_valid result && forallb o_ok os /\ Forall (deeper p) (r_children result').
Proof.
  intro Hv. induction l as [|j l IH]; intros result result' Hb Hnd Hcl Hr An Di D; cbn [each_noreset].
  { intros [= <-]. exists []. cbn. rewrite andb_true_r. auto using frame_refl. }
  inversion Hb as [|? ? [(x0 & Hp) Hw] Hb']; inversion Hcl as [|? ? Hcl1 Hcl2]; inversion Hnd as [|? ? Hnd1 Hnd2]; subst.
  destruct (ev t j anck result) as [r1| |] eqn:E; cbn [bind]; try discriminate.
  destruct (ev_inplace v t j result r1 Hw Hr Hv Hcl1 An Di E) as (o & Ho & cs & F & C & U & V1 & _). intro E2.
  assert (Cl1 : Forall (fun j' => clean (i_path j') r1) l).
  { rewrite Forall_forall in Hcl2, Hb' |- *. intros j' Hj'. apply (clean_app (i_path j') _ _ cs C (Hcl2 j' Hj')).
    revert U. apply Forall_impl. intros kc (U1 & U2 & U3). destruct (Hb' j' Hj') as [(x1 & Hp1) _].
    assert (N : i_path j <> i_path j') by (intro X; apply Hnd1; rewrite X; now apply in_map).
    rewrite U1, U2. split; [exact N|]. split; [exact N|]. intro key. apply (collect_apart p x0 x1 (i_path j)); [congruence|exact U3|exact Hp1|exact Hp]. }
  assert (An1 : r_annot r1 = JNull) by (destruct F as (_ & _ & _ & _ & _ & _ & F7); now rewrite F7).
  assert (Di1 : r_discard r1 = false) by (destruct F as (_ & _ & _ & _ & _ & F6 & _); now rewrite F6).
  assert (D1 : Forall (deeper p) (r_children r1)).
  { rewrite C. apply Forall_app. split; [exact D|]. revert U. apply Forall_impl. intros kc (_ & _ & U). exists [x0].
    split; [discriminate|now rewrite <- Hp]. }
  destruct (IH _ _ Hb' Hnd2 Cl1 (stands_frame _ _ _ F Hr) An1 Di1 D1 E2) as (os & H1 & F2 & V2 & D2).
  exists (o :: os). unfold judge_all in *. cbn [map all_some forallb]. rewrite Ho, H1. split; [reflexivity|].
  split; [exact (frame_trans _ _ _ F F2)|]. split; [|exact D2]. now rewrite V2, V1, andb_assoc.
Qed.

(** New children about deeper instances. *)
Lemma put_deeper v key t i' p q result result' c : q <> [] -> i_path i' = p ++ q -> jwf (i_val i') = true ->
  stands v result -> leads v key t -> Forall (deeper p) (r_children result) ->
  in_child ev result anck i' key t = Ok (result', c) ->
  exists o cs, jd sc t (i_val i') = Some o /\ passed c = o_ok o /\ result' = with_children result cs /\ Forall (deeper p) cs.
Proof.
  intros Hq Hp Hw Hr Hl D E. destruct (in_child_spec v _ _ _ _ _ _ Hw Hr Hl E) as (o & Ho & P & ->).
  apply post_new_child in P. exists o. eexists. split; [exact Ho|]. split; [apply P|]. split; [reflexivity|].
  apply Forall_cput; [|exact D]. exists q. split; [exact Hq|]. rewrite <- Hp. apply P.
Qed.

Lemma with_with n a b : with_children (with_children n a) b = with_children n b.
Proof. reflexivity. Qed.

Lemma pairwise_spec v p : forall is l k result result' bs,
  Forall (fun j => (exists q, q <> [] /\ i_path j = p ++ q) /\ jwf (i_val j) = true) is ->
  stands v result -> (forall j t, nth_error l j = Some t -> leads v (str_of_nat (k + j)) t) ->
  Forall (deeper p) (r_children result) ->
  pairwise ev anck k is l result = Ok (result', bs) ->
  exists os cs, all_some (map (fun tx => jd sc (fst tx) (snd tx)) (combine l (map i_val is))) = Some os /\ bs = map o_ok os /\
    result' = with_children result cs /\ Forall (deeper p) cs.
Proof.
  induction is as [|j is IH]; intros l k result result' bs Hb Hr Hl D.
  { cbn [pairwise]. intros [= <- <-]. exists [], (r_children result). destruct l; cbn; (repeat split; [now destruct result|exact D]). }
  destruct l as [|t l]; cbn [pairwise].
  { intros [= <- <-]. exists [], (r_children result). cbn. repeat split; [now destruct result|exact D]. }
  inversion Hb as [|? ? [(q & Hq & Hp) Hw] Hb']; subst.
  destruct (in_child ev result anck j (str_of_nat k) t) as [[r1 c]| |] eqn:E; cbn [bind]; try discriminate.
  assert (Hl0 : leads v (str_of_nat k) t) by (specialize (Hl 0 t eq_refl); now rewrite Nat.add_0_r in Hl).
  destruct (put_deeper v _ _ _ p q _ _ _ Hq Hp Hw Hr Hl0 D E) as (o & cs & Ho & Pc & -> & Dc).
  destruct (pairwise ev anck (S k) is l _) as [[r2 bs']| |] eqn:E2; cbn [bind]; try discriminate. intros [= <- <-].
  assert (Hl1 : forall j' u, nth_error l j' = Some u -> leads v (str_of_nat (S k + j')) u).
  { intros j' u Hj. specialize (Hl (S j') u Hj). now rewrite Nat.add_succ_r in Hl. }
  destruct (IH _ (S k) (with_children result cs) _ _ Hb' Hr Hl1 Dc E2) as (os & cs' & H1 & -> & -> & D').
  exists (o :: os), cs'. cbn [map combine all_some fst snd]. rewrite Ho, H1, Pc. repeat split. exact D'.
Qed.

Lemma named_spec v subs p : (forall name t, dget name subs = Some t -> leads v name t) ->
  forall (l : list (pystr * inst)) result result' good bad,
  Forall (fun ni => (exists q, q <> [] /\ i_path (snd ni) = p ++ q) /\ jwf (i_val (snd ni)) = true) l ->
  stands v result -> Forall (deeper p) (r_children result) ->
  named ev subs anck l result = Ok (result', (good, bad)) ->
  let present := filter (fun ni => dmem (fst ni) subs) l in
  exists os cs,
    all_some (map (fun ni => obind (dget (fst ni) subs) (fun t => jd sc t (i_val (snd ni)))) present) = Some os /\
    (bad = [] <-> forallb o_ok os = true) /\ (bad = [] -> good = map fst present) /\
    result' = with_children result cs /\ Forall (deeper p) cs.
Proof.
  intro Hl. induction l as [|[name j] l IH]; intros result result' good bad Hb Hr D; cbn [named].
  { intros [= <- <- <-]. exists [], (r_children result). cbn. repeat split; [now destruct result|exact D]. }
  inversion Hb as [|? ? [(q & Hq & Hp) Hw] Hb']; subst. cbn [fst snd] in *. cbn zeta in *. cbn [filter fst].
  assert (M : dmem name subs = match dget name subs with Some _ => true | None => false end) by reflexivity.
  rewrite M. destruct (dget name subs) as [t|] eqn:G.
  2: { intro E. destruct (IH _ _ _ _ Hb' Hr D E) as (os & cs & H1 & H2 & H3 & H4). exists os, cs. exact (conj H1 (conj H2 (conj H3 H4))). }
  destruct (in_child ev result anck j name t) as [[r1 c]| |] eqn:E; cbn [bind]; try discriminate.
  destruct (put_deeper v _ _ _ p q _ _ _ Hq Hp Hw Hr (Hl _ _ G) D E) as (o & cs & Ho & Pc & -> & Dc).
  destruct (named ev subs anck l _) as [[r2 [good' bad']]| |] eqn:E2; cbn [bind]; try discriminate. intro X.
  destruct (IH (with_children result cs) _ _ _ Hb' Hr Dc E2) as (os & cs' & H1 & H2 & H3 & H4 & D').
  exists (o :: os), cs'. injection X as <- X. rewrite Pc in X. cbn [map all_some fst snd forallb]. rewrite G. cbn [obind].
  rewrite Ho. cbn [fst snd] in H1. rewrite H1. split; [reflexivity|]. destruct (o_ok o); injection X as <- <-; cbn [andb].
  - split; [exact H2|]. split; [intro Z; now rewrite (H3 Z)|]. split; [exact H4|exact D'].
  - split; [split; discriminate|]. split; [discriminate|]. split; [exact H4|exact D'].
Qed.

Lemma matching_spec v p name j : (exists q, q <> [] /\ i_path j = p ++ q) -> jwf (i_val j) = true ->
  forall subs result result' good bad,
  (forall regex t, In (regex, t) subs -> leads v regex t) ->
  stands v result -> Forall (deeper p) (r_children result) ->
  matching W ev subs anck name j result = Ok (result', (good, bad)) ->
  exists bs os cs,
    all_some (map (fun rt => w_search W (fst rt) name) subs) = Some bs /\
    let hits := map fst (filter snd (combine (map snd subs) bs)) in
    all_some (map (fun t => jd sc t (i_val j)) hits) = Some os /\
    (bad = [] <-> forallb o_ok os = true) /\ (forall n, In n good -> n = name) /\
    (bad = [] -> (hits = [] <-> good = [])) /\
    result' = with_children result cs /\ Forall (deeper p) cs.
Proof.
  intros (q & Hq & Hp) Hw. induction subs as [|[regex t] subs IH]; intros result result' good bad Hl Hr D; cbn [matching].
  { intros [= <- <- <-]. exists [], [], (r_children result). cbn. repeat split; [tauto|now destruct result|exact D]. }
  cbn [map fst snd]. destruct (w_search W regex name) as [[|]|] eqn:Sr; try discriminate.
  2: { intro E. destruct (IH _ _ _ _ (fun r u Hn => Hl r u (or_intror Hn)) Hr D E) as (bs & os & cs & H1 & H2).
       exists (false :: bs), os, cs. cbn [all_some]. rewrite H1. split; [reflexivity|]. exact H2. }
  destruct (in_child ev result anck j regex t) as [[r1 c]| |] eqn:E; cbn [bind]; try discriminate.
  destruct (put_deeper v _ _ _ p q _ _ _ Hq Hp Hw Hr (Hl regex t (or_introl eq_refl)) D E) as (o & cs & Ho & Pc & -> & Dc).
  destruct (matching W ev subs anck name j _) as [[r2 [good' bad']]| |] eqn:E2; cbn [bind]; try discriminate. intro X.
  destruct (IH (with_children result cs) _ _ _ (fun r u Hn => Hl r u (or_intror Hn)) Hr Dc E2)
    as (bs & os & cs' & H1 & H2 & H3 & H4 & H5 & H6 & D').
  exists (true :: bs), (o :: os), cs'. cbn [all_some]. rewrite H1. split; [reflexivity|].
  cbn [combine filter snd map fst all_some forallb]. rewrite Ho. cbn zeta in H2. rewrite H2.
  injection X as <- X. rewrite Pc in X. split; [reflexivity|]. destruct (o_ok o); injection X as <- <-; cbn [andb].
  - split; [exact H3|]. split; [intros n [<-|Hn]; auto|]. split; [intros _; split; discriminate|]. split; [exact H6|exact D'].
  - split; [split; discriminate|]. split; [exact H4|]. split; [discriminate|]. split; [exact H6|exact D'].
Qed.

Lemma patterned_spec v p subs : (forall regex t, In (regex, t) subs -> leads v regex t) ->
  forall (l : list (pystr * inst)) result result' good bad,
  Forall (fun ni => (exists q, q <> [] /\ i_path (snd ni) = p ++ q) /\ jwf (i_val (snd ni)) = true) l ->
  stands v result -> Forall (deeper p) (r_children result) ->
  patterned W ev subs anck l result = Ok (result', (good, bad)) ->
  exists os cs,
    all_some (map (fun ni =>
        obind (all_some (map (fun rt => w_search W (fst rt) (fst ni)) subs)) (fun bs =>
        let hits := map fst (filter snd (combine (map snd subs) bs)) in
        obind (all_some (map (fun t => jd sc t (i_val (snd ni))) hits)) (fun os =>
        Some (mkO (all_accept os) (match hits with [] => [] | _ => [fst ni] end) [] [])))) l) = Some os /\
    (bad = [] <-> forallb o_ok os = true) /\
    (bad = [] -> forall n, In n good <-> In n (flat_map o_names os)) /\
    result' = with_children result cs /\ Forall (deeper p) cs.
Proof.
  intro Hl. induction l as [|[name j] l IH]; intros result result' good bad Hb Hr D; cbn [patterned].
  { intros [= <- <- <-]. exists [], (r_children result). cbn. repeat split; [tauto|tauto|now destruct result|exact D]. }
  inversion Hb as [|? ? [Hq Hw] Hb']; subst. cbn [fst snd] in *.
  destruct (matching W ev subs anck name j result) as [[r1 [good1 bad1]]| |] eqn:E; cbn [bind]; try discriminate.
  destruct (matching_spec v p name j Hq Hw subs _ _ _ _ Hl Hr D E) as (bs & os1 & cs1 & M1 & M2 & M3 & M4 & M5 & -> & D1).
  destruct (patterned W ev subs anck l _) as [[r2 [good2 bad2]]| |] eqn:E2; cbn [bind]; try discriminate. intros [= <- <- <-].
  destruct (IH (with_children result cs1) _ _ _ Hb' Hr D1 E2) as (os & cs & H1 & H2 & H3 & -> & D').
  cbn [map all_some fst snd]. rewrite M1. cbn [obind]. cbn zeta in M2, M5 |- *. rewrite M2. cbn [obind]. rewrite H1.
  eexists (_ :: os), cs. split; [reflexivity|]. cbn [forallb o_ok flat_map o_names]. unfold all_accept. split.
  { rewrite andb_true_iff, <- H2, <- M3. split; [intro X; apply app_eq_nil in X; exact X|intros [-> ->]; reflexivity]. }
  split; [|split; [reflexivity|exact D']].
  intro X. apply app_eq_nil in X. destruct X as [-> ->]. intro n. rewrite !in_app_iff, (H3 eq_refl).
  specialize (M5 eq_refl). destruct (map fst (filter snd (combine (map snd subs) bs))) as [|h hs].
  - rewrite (proj1 M5 eq_refl). tauto.
  - cbn [In]. assert (good1 <> []) by (intro X; now rewrite <- M5 in X).
    split; (intros [X|X]; [|now right]); left.
    + left. symmetry. now apply M4.
    + destruct X as [<-|[]]. destruct good1 as [|g gs]; [congruence|]. left. apply M4. now left.
Qed.
End Sim.
