(** Proofs about JAlias.v. *)
From Verif Require Import JsonFacts JTreeOps SpecTreeAny SpecInherit JTreeSim JSeq JSeqFacts JAlias SpecAlias.
Open Scope nat_scope.

(** *** The cache *)
Lemma cached_cons t n v m : cached_value (cache_value n v t) m = if n =? m then Some v else cached_value t m.
Proof. unfold cached_value, cache_value. cbn. now destruct (n =? m). Qed.
Lemma cached_heap t h m : cached_value (with_heap t h) m = cached_value t m.
Proof. reflexivity. Qed.
Lemma cached_forget t n m :
  cached_value (forget_value n t) m =
  if existsb (Nat.eqb m) (lineage (S (length (s_heap t))) (s_heap t) n) then None else cached_value t m.
Proof.
  unfold cached_value, forget_value. cbn [s_cache]. generalize (lineage (S (length (s_heap t))) (s_heap t) n) as ns. intro ns.
  induction (s_cache t) as [|e c IH]; cbn [filter find].
  - destruct (existsb (Nat.eqb m) ns); reflexivity.
  - destruct (existsb (Nat.eqb (fst e)) ns) eqn:X; cbn [negb].
    + rewrite IH. destruct (Nat.eqb_spec (fst e) m) as [E|N]; [|reflexivity]. subst m. now rewrite X.
    + cbn [find]. destruct (Nat.eqb_spec (fst e) m) as [E|N]; [|exact IH]. subst m. now rewrite X.
Qed.

(** *** The invariant: a cached list or dict holds the cached values of the
    children *)
Definition linked (t : state) (n : id) (r : pyref) : Prop :=
  match ndata (getn (s_heap t) n) with
  | DNull => r = PAtom JNull
  | DBool b => r = PAtom (JBool b)
  | DNum x => r = PAtom (JNum x)
  | DStr s => r = PAtom (JStr s)
  | DArr ids => exists a l, r = PRef a /\ nth_error (s_store t) a = Some (PList l) /\
                            Forall2 (fun c x => cached_value t c = Some x) ids l
  | DObj m => exists a l, r = PRef a /\ nth_error (s_store t) a = Some (PDict (combine (map fst m) l)) /\
                          Forall2 (fun c x => cached_value t c = Some x) (map snd m) l
  end.
Definition lower (a : nat) (x : pyref) : Prop := match x with PRef b => b < a | PAtom _ => True end.
Definition parts (o : pyobj) : list pyref := match o with PList l => l | PDict m => map snd m end.
Record good (t : state) : Prop := {
  good_heap : coherent (s_heap t);
  good_link : forall n r, cached_value t n = Some r -> n < length (s_heap t) /\ linked t n r;
  good_store : forall a o, nth_error (s_store t) a = Some o -> Forall (lower a) (parts o)
}.
Definition further (t u : state) : Prop :=
  s_heap u = s_heap t /\ (exists l, s_store u = s_store t ++ l) /\
  forall m r, cached_value t m = Some r -> cached_value u m = Some r.

Lemma further_refl t : further t t.
Proof. split; [reflexivity|split; [exists []; now rewrite app_nil_r|auto]]. Qed.
Lemma further_trans t u v : further t u -> further u v -> further t v.
Proof.
  intros (H & (l & L) & C) (H' & (l' & L') & C'). split; [congruence|split; [|auto]].
  exists (l ++ l'). rewrite L', L. now rewrite app_assoc.
Qed.
Lemma nth_further (st l : store) a o : nth_error st a = Some o -> nth_error (st ++ l) a = Some o.
Proof. intro H. rewrite nth_error_app1; [exact H|]. apply nth_error_Some. congruence. Qed.
Lemma Forall2_more {A B} (P Q : A -> B -> Prop) l l' : (forall a b, P a b -> Q a b) -> Forall2 P l l' -> Forall2 Q l l'.
Proof. intros H F. induction F; constructor; auto. Qed.
Lemma linked_further t u n r : further t u -> linked t n r -> linked u n r.
Proof.
  intros (H & (l & L) & C). unfold linked. rewrite H. destruct (ndata _); auto.
  - intros (a & x & -> & S & F). exists a, x. split; [reflexivity|]. split; [rewrite L; now apply nth_further|].
    revert F. apply Forall2_more. auto.
  - intros (a & x & -> & S & F). exists a, x. split; [reflexivity|]. split; [rewrite L; now apply nth_further|].
    revert F. apply Forall2_more. auto.
Qed.

Lemma shows_more st l v w : shows st v w -> shows (st ++ l) v w.
Proof.
  induction 1 as [v|a x vs S Len _ IH|a m kvs S K _ IH].
  - constructor.
  - eapply shows_list; eauto. now apply nth_further.
  - eapply shows_dict; eauto. now apply nth_further.
Qed.

Lemma Forall2_nth {A B} (P : A -> B -> Prop) l l' i a : Forall2 P l l' -> nth_error l i = Some a ->
  exists b, nth_error l' i = Some b /\ P a b.
Proof.
  intro F. revert i. induction F as [|x y l l' H F IH]; intros [|i] E; cbn in *; try discriminate; eauto.
  injection E as <-. eauto.
Qed.
Lemma Forall2_nth_r {A B} (P : A -> B -> Prop) l l' i b : Forall2 P l l' -> nth_error l' i = Some b ->
  exists a, nth_error l i = Some a /\ P a b.
Proof.
  intro F. revert i. induction F as [|x y l l' H F IH]; intros [|i] E; cbn in *; try discriminate; eauto.
  injection E as <-. eauto.
Qed.
Lemma nth_combine {A B} (ks : list A) (l : list B) i k x : nth_error (combine ks l) i = Some (k, x) ->
  nth_error ks i = Some k /\ nth_error l i = Some x.
Proof.
  revert l i. induction ks as [|k0 ks IH]; intros [|x0 l] [|i] E; cbn in *; try discriminate; [|apply IH; exact E].
  injection E as -> ->. auto.
Qed.
Lemma fst_combine {A B} (ks : list A) (l : list B) : length ks = length l -> map fst (combine ks l) = ks.
Proof. revert l. induction ks as [|k ks IH]; intros [|x l] E; try discriminate; cbn; [reflexivity|]. f_equal. apply IH. now injection E. Qed.
Lemma snd_combine {A B} (ks : list A) (l : list B) : length ks = length l -> map snd (combine ks l) = l.
Proof. revert l. induction ks as [|k ks IH]; intros [|x l] E; try discriminate; cbn; [reflexivity|]. f_equal. apply IH. now injection E. Qed.

(** A cached value is the value. *)
Lemma good_shows t n r w : good t -> denotes (s_heap t) n w -> cached_value t n = Some r -> shows (s_store t) r w.
Proof.
  intros G D. revert r. induction D as [n E|n b E|n x E|n s E|n ids l E Len _ IH|n m kvs E K _ IH]; intros r C;
    apply (good_link t G) in C as [_ L]; unfold linked in L; rewrite E in L; try (subst r; constructor).
  - destruct L as (a & x & -> & S & F). eapply shows_list; [exact S|apply Forall2_len in F; lia|].
    intros i y v Hy Hv. destruct (Forall2_nth_r _ _ _ _ _ F Hy) as (c & Hc & Cc). exact (IH i c v Hc Hv y Cc).
  - destruct L as (a & x & -> & S & F). pose proof (Forall2_len _ _ _ F) as Lx. rewrite map_length in Lx.
    eapply shows_dict; [exact S|rewrite fst_combine; [exact K|now rewrite map_length]|].
    intros i k y k' v Hy Hv. apply nth_combine in Hy as [Hk Hy].
    destruct (Forall2_nth_r _ _ _ _ _ F Hy) as (c & Hc & Cc).
    rewrite nth_error_map in Hk, Hc. destruct (nth_error m i) as [[k0 c0]|] eqn:Em; [|discriminate]. cbn in Hk, Hc.
    injection Hk as ->. injection Hc as ->. exact (IH i k c k' v Em Hv y Cc).
Qed.

(** *** Reading *)
Lemma read_each_spec rd (lo : nat) ids : forall t, good t ->
  (forall u c, good u -> s_heap u = s_heap t -> In c ids -> exists r v, rd u c = (Ok r, v) /\ further u v /\ good v /\
     cached_value v c = Some r /\ forall m, m < c -> cached_value v m = cached_value u m) ->
  (forall c, In c ids -> lo < c) ->
  exists l u, read_each rd t ids = (Ok l, u) /\ further t u /\ good u /\
    Forall2 (fun c x => cached_value u c = Some x) ids l /\ forall m, m <= lo -> cached_value u m = cached_value t m.
Proof.
  induction ids as [|c ids IH]; intros t G R B; cbn [read_each].
  - exists [], t. split; [reflexivity|]. split; [apply further_refl|]. auto.
  - destruct (R t c G eq_refl (or_introl eq_refl)) as (r & v & -> & F & G' & C & O).
    destruct (IH v G') as (l & u & -> & F' & G2 & FA & O').
    { intros u c' Gu Hu I. apply R; auto; [rewrite Hu; apply F|now right]. }
    { intros; apply B; now right. }
    exists (r :: l), u. split; [reflexivity|]. split; [eapply further_trans; eauto|]. split; [exact G2|]. split.
    + constructor; [apply F', C|exact FA].
    + intros m Hm. rewrite O' by exact Hm. apply O. specialize (B c (or_introl eq_refl)). lia.
Qed.
Lemma lower_any t l ids : good t -> Forall2 (fun c x => cached_value t c = Some x) ids l -> Forall (lower (length (s_store t))) l.
Proof.
  intros G F. induction F as [|c x ids l C F IH]; constructor; auto. apply (good_link t G) in C as [_ L]. unfold linked in L.
  destruct (ndata _); try (subst x; exact I).
  - destruct L as (a & y & -> & S & _). cbn. apply nth_error_Some. congruence.
  - destruct L as (a & y & -> & S & _). cbn. apply nth_error_Some. congruence.
Qed.
Lemma good_new t n o : good t -> n < length (s_heap t) -> cached_value t n = None -> Forall (lower (length (s_store t))) (parts o) ->
  linked (cache_new n o t) n (PRef (length (s_store t))) ->
  further t (cache_new n o t) /\ good (cache_new n o t).
Proof.
  intros G Hn N P L.
  assert (F : further t (cache_new n o t)).
  { split; [reflexivity|]. split; [now exists [o]|]. intros m r C. unfold cache_new. rewrite cached_cons.
    destruct (Nat.eqb_spec n m) as [E|_]; [subst m; congruence|exact C]. }
  split; [exact F|]. constructor.
  - apply G.
  - intros m r C. unfold cache_new in C. rewrite cached_cons in C. destruct (Nat.eqb_spec n m) as [E|_].
    + subst m. injection C as <-. auto.
    + destruct (good_link t G m r C) as [B K]. split; [exact B|]. eapply linked_further; eauto.
  - intros a x S. cbn [cache_new cache_value s_store] in S. destruct (Nat.lt_ge_cases a (length (s_store t))) as [B|B].
    + rewrite nth_error_app1 in S by exact B. exact (good_store t G a x S).
    + rewrite nth_error_app2 in S by exact B. destruct (a - length (s_store t)) as [|i] eqn:Ea; cbn in S.
      * injection S as <-. replace a with (length (s_store t)) by lia. exact P.
      * destruct i; discriminate.
Qed.
Lemma good_atom t n v : good t -> n < length (s_heap t) -> cached_value t n = None -> linked t n (PAtom v) ->
  (match ndata (getn (s_heap t) n) with DArr _ | DObj _ => False | _ => True end) ->
  further t (cache_value n (PAtom v) t) /\ good (cache_value n (PAtom v) t).
Proof.
  intros G Hn N L K.
  assert (F : further t (cache_value n (PAtom v) t)).
  { split; [reflexivity|]. split; [exists []; cbn; now rewrite app_nil_r|]. intros m r C. rewrite cached_cons.
    destruct (Nat.eqb_spec n m) as [E|_]; [subst m; congruence|exact C]. }
  split; [exact F|]. constructor; [apply G| |apply G].
  intros m r C. rewrite cached_cons in C. destruct (Nat.eqb_spec n m) as [E|_].
  - subst m. injection C as <-. split; [exact Hn|]. eapply linked_further; eauto.
  - destruct (good_link t G m r C) as [B M]. split; [exact B|]. eapply linked_further; eauto.
Qed.

Lemma value_ref_f_spec f : forall t n, good t -> n < length (s_heap t) -> length (s_heap t) - n < f ->
  exists r u, value_ref_f f t n = (Ok r, u) /\ further t u /\ good u /\ cached_value u n = Some r /\
    forall m, m < n -> cached_value u m = cached_value t m.
Proof.
  induction f as [|f IH]; intros t n G Hn Hf; [lia|]. cbn [value_ref_f].
  destruct (cached_value t n) as [r|] eqn:C.
  { exists r, t. split; [reflexivity|]. split; [apply further_refl|]. auto. }
  assert (O : ordered (s_heap t)) by apply coherent_ordered, G.
  assert (Small : forall v, linked t n (PAtom v) -> (match ndata (getn (s_heap t) n) with DArr _ | DObj _ => False | _ => True end) ->
    exists r u, (Ok (PAtom v), cache_value n (PAtom v) t) = (Ok r, u) /\ further t u /\ good u /\ cached_value u n = Some r /\
      forall m, m < n -> cached_value u m = cached_value t m).
  { intros v L K. destruct (good_atom t n v G Hn C L K) as [F G']. do 2 eexists. split; [reflexivity|]. split; [exact F|].
    split; [exact G'|]. split; [rewrite cached_cons; now rewrite Nat.eqb_refl|]. intros m Hm. rewrite cached_cons.
    destruct (Nat.eqb_spec n m); [lia|reflexivity]. }
  assert (Rd : forall ids, (forall c, In c ids -> n < c /\ c < length (s_heap t)) ->
    exists l u, read_each (value_ref_f f) t ids = (Ok l, u) /\ further t u /\ good u /\
      Forall2 (fun c x => cached_value u c = Some x) ids l /\ forall m, m <= n -> cached_value u m = cached_value t m).
  { intros ids B. apply read_each_spec; [exact G| |intros c I; apply B, I].
    intros u c Gu Hu I. destruct (B c I). apply IH; [exact Gu|rewrite Hu; lia|rewrite Hu; lia]. }
  assert (Big : forall ids o u l, read_each (value_ref_f f) t ids = (Ok l, u) -> further t u -> good u ->
    Forall2 (fun c x => cached_value u c = Some x) ids l -> (forall m, m <= n -> cached_value u m = cached_value t m) ->
    parts (o l) = l -> linked (cache_new n (o l) u) n (PRef (length (s_store u))) ->
    exists r v, (Ok (PRef (length (s_store u))), cache_new n (o l) u) = (Ok r, v) /\ further t v /\ good v /\ cached_value v n = Some r /\
      forall m, m < n -> cached_value v m = cached_value t m).
  { intros ids o u l _ F G' FA O' P L. destruct (good_new u n (o l) G') as [F2 G2].
    - rewrite (proj1 F). exact Hn.
    - rewrite O' by lia. exact C.
    - rewrite P. eapply lower_any; eauto.
    - exact L.
    - do 2 eexists. split; [reflexivity|]. split; [eapply further_trans; eauto|]. split; [exact G2|]. unfold cache_new. split.
      + rewrite cached_cons. now rewrite Nat.eqb_refl.
      + intros m Hm. rewrite cached_cons. destruct (Nat.eqb_spec n m); [lia|]. change (cached_value u m = cached_value t m). apply O'. lia. }
  destruct (ndata (getn (s_heap t) n)) as [|b|x|s|ids|m] eqn:E.
  1-4: apply Small; [unfold linked; now rewrite E|exact I].
  - destruct (Rd ids) as (l & u & Er & F & G' & FA & O').
    { intros c I. apply In_nth_error in I as (j & Hj). apply (O n (str_of_nat j)). econstructor; eauto. }
    rewrite Er. apply (Big ids PList u l); auto.
    unfold linked. cbn [cache_new cache_value s_heap s_store]. rewrite (proj1 F), E. do 2 eexists. split; [reflexivity|].
    split; [rewrite nth_error_app2 by lia; now rewrite Nat.sub_diag|].
    revert FA. apply Forall2_more. intros c x0 Hc. unfold cache_new. rewrite cached_cons. destruct (Nat.eqb_spec n c) as [Q|_]; [|exact Hc].
    subst c. rewrite O' in Hc by lia. congruence.
  - destruct (Rd (map snd m)) as (l & u & Er & F & G' & FA & O').
    { intros c I. apply in_map_iff in I as ([k c'] & <- & I). apply (O n k). econstructor; eauto. }
    rewrite Er. apply (Big (map snd m) (fun l => PDict (combine (map fst m) l)) u l); auto.
    + cbn [parts]. apply snd_combine. apply Forall2_len in FA. rewrite map_length in *. exact FA.
    + unfold linked. cbn [cache_new cache_value s_heap s_store]. rewrite (proj1 F), E. do 2 eexists. split; [reflexivity|].
      split; [rewrite nth_error_app2 by lia; now rewrite Nat.sub_diag|].
      revert FA. apply Forall2_more. intros c x0 Hc. unfold cache_new. rewrite cached_cons. destruct (Nat.eqb_spec n c) as [Q|_]; [|exact Hc].
      subst c. rewrite O' in Hc by lia. congruence.
Qed.
Lemma value_ref_spec t n : good t -> n < length (s_heap t) ->
  exists r u, value_ref t n = (Ok r, u) /\ further t u /\ good u /\ cached_value u n = Some r.
Proof.
  intros G Hn. destruct (value_ref_f_spec (S (length (s_heap t))) t n G Hn ltac:(lia)) as (r & u & E & F & G' & C & _).
  exists r, u. auto.
Qed.

(** *** What the constructor sees *)
Lemma shows_content st : (forall a o, nth_error st a = Some o -> Forall (lower a) (parts o)) ->
  forall f r w, (match r with PRef a => S a < f | PAtom _ => 0 < f end) -> shows st r w -> content_f f st r = Ok w.
Proof.
  intro W. induction f as [|f IH]; intros r w Hf Sh; [destruct r; lia|].
  assert (Each : forall a l vs, a < f -> Forall (lower a) l -> Forall2 (shows st) l vs -> each_content (content_f f st) l = Ok vs).
  { intros a l vs Ha B F. induction F as [|x v l vs Sx F IHl]; [reflexivity|]. inversion B as [|? ? Bx Bl]; subst. cbn [each_content].
    rewrite (IH x v); [cbn [bind]; rewrite (IHl Bl); reflexivity| |exact Sx]. destruct x; cbn in Bx; lia. }
  inversion Sh as [v|a l vs N Len K|a m kvs N K H]; subst; cbn [content_f]; [reflexivity| |]; rewrite N; pose proof (W a _ N) as B; cbn [parts] in B.
  - rewrite (Each a l vs); [reflexivity|lia|exact B|]. clear - Len K. revert vs Len K. induction l as [|x l IH]; intros [|v vs] Len K; try discriminate; constructor.
    + exact (K 0 x v eq_refl eq_refl).
    + apply IH; [now injection Len|]. intros i y w Hy Hw. exact (K (S i) y w Hy Hw).
  - rewrite (Each a (map snd m) (map snd kvs)); [cbn [bind]|lia|exact B|].
    + f_equal. f_equal. rewrite K. clear. induction kvs as [|[k v] kvs IH]; cbn; [reflexivity|]. now rewrite IH.
    + clear - K H. revert kvs K H. induction m as [|[k x] m IH]; intros [|[k' v] kvs] K H; try discriminate; constructor; cbn.
      * exact (H 0 k x k' v eq_refl eq_refl).
      * apply IH; [now injection K|]. intros i k1 y k2 w Hy Hw. exact (H (S i) k1 y k2 w Hy Hw).
Qed.
Lemma good_content t r w : good t -> (match r with PRef a => a < length (s_store t) | PAtom _ => True end) ->
  shows (s_store t) r w -> content (s_store t) r = Ok w.
Proof. intros G B Sh. unfold content. apply shows_content; [apply G| |exact Sh]. destruct r; lia. Qed.
Lemma shows_bound st a w : shows st (PRef a) w -> a < length st.
Proof. intro H. inversion H; subst; apply nth_error_Some; congruence. Qed.
Lemma operand_content_spec t o w : good t -> operand_ok (s_heap t) o -> operand_is (s_heap t) o w ->
  exists u, operand_content t o = (Ok w, u) /\ further t u /\ good u /\ jwf w = true.
Proof.
  intros G OK W. destruct o as [v|b]; cbn [operand_ok operand_is operand_content] in *.
  - subst v. exists t. split; [reflexivity|]. split; [apply further_refl|auto].
  - destruct (value_ref_spec t b G OK) as (r & u & -> & F & G' & C).
    assert (D : denotes (s_heap u) b w) by (rewrite (proj1 F); exact W).
    pose proof (good_shows u b r w G' D C) as Sh. exists u. split; [|split; [exact F|split; [exact G'|]]].
    + f_equal. apply good_content; auto. destruct r; [exact I|]. eapply shows_bound; eauto.
    + destruct (good_heap t G) as (g & H & J). apply (E_denotes _ g) in W; [|exact H]. exact (denotes_jwf g b w (inv_shape g J) W).
Qed.

(** *** Editing *)
Lemma coherent_child h n k c : coherent h -> child_at h n k c -> n < c /\ nparent (getn h c) = Some n.
Proof.
  intros (g & H & I) C. assert (C' : child_at g n k c).
  { pose proof (sim_data _ _ (E_get _ _ n H)) as D. inversion C as [ids i c0 Ed Hc|m k0 c0 Ed Hc]; subst; [eapply ca_item|eapply ca_member]; eauto; congruence. }
  destruct (sh_child g (inv_shape g I) n k c C') as (L & _ & P & _). split; [exact L|].
  now rewrite (sim_parent _ _ (E_get _ _ c H)).
Qed.

Lemma coherent_parent h n p : coherent h -> nparent (getn h n) = Some p -> p < n.
Proof. intros (g & H & I) P. rewrite (sim_parent _ _ (E_get _ _ n H)) in P. exact (proj1 (sh_parent g (inv_shape g I) n p P)). Qed.
Lemma lineage_up h : coherent h -> forall f n c p, n < f -> In c (lineage f h n) -> nparent (getn h c) = Some p -> In p (lineage f h n).
Proof.
  intro C. induction f as [|f IH]; intros n c p Hn I P; [lia|]. cbn [lineage] in *. destruct I as [E|I].
  - subst c. rewrite P. right. pose proof (coherent_parent h n p C P). destruct f; [lia|]. now left.
  - destruct (nparent (getn h n)) as [q|] eqn:Eq; [|contradiction]. pose proof (coherent_parent h n q C Eq).
    right. eapply IH; eauto. lia.
Qed.
Lemma lineage_here f h n : In n (lineage (S f) h n).
Proof. now left. Qed.
Lemma Forall2_In {A B} (P Q : A -> B -> Prop) l l' : (forall a b, In a l -> P a b -> Q a b) -> Forall2 P l l' -> Forall2 Q l l'.
Proof. intros H F. induction F as [|a b l l' Pab F IH]; constructor; [apply H; [now left|exact Pab]|]. apply IH. intros; apply H; [now right|assumption]. Qed.

Lemma good_edit t n h' : good t -> n < length (s_heap t) -> coherent h' -> local (s_heap t) h' n ->
  good (with_heap (forget_value n t) h').
Proof.
  intros G Hn C' [L D]. pose proof (good_heap t G) as C.
  set (ns := lineage (S (length (s_heap t))) (s_heap t) n).
  assert (Key : forall m, cached_value (with_heap (forget_value n t) h') m = if existsb (Nat.eqb m) ns then None else cached_value t m).
  { intro m. rewrite cached_heap. apply cached_forget. }
  constructor; [exact C'| |exact (good_store t G)].
  intros m r Cm. rewrite Key in Cm. destruct (existsb (Nat.eqb m) ns) eqn:X; [discriminate|].
  assert (Nm : ~ In m ns).
  { intro I. assert (existsb (Nat.eqb m) ns = true) by (apply existsb_exists; exists m; split; [exact I|apply Nat.eqb_refl]). congruence. }
  destruct (good_link t G m r Cm) as [Bm K]. split; [cbn; lia|].
  assert (m <> n) by (intro; subst m; apply Nm; apply lineage_here).
  assert (Ch : forall k c x, child_at (s_heap t) m k c -> cached_value t c = Some x -> cached_value (with_heap (forget_value n t) h') c = Some x).
  { intros k c x Hc Cc. rewrite Key. destruct (existsb (Nat.eqb c) ns) eqn:Y; [|exact Cc]. exfalso. apply Nm.
    apply existsb_exists in Y as (y & Iy & Ey). apply Nat.eqb_eq in Ey. subst y.
    eapply lineage_up; [exact C| |exact Iy|exact (proj2 (coherent_child _ _ _ _ C Hc))]. lia. }
  unfold linked in *. cbn [with_heap s_heap s_store forget_value]. rewrite D by auto.
  destruct (ndata (getn (s_heap t) m)) as [|b|x|s|ids|ms] eqn:Em; auto.
  - destruct K as (a & l & -> & Sa & F). exists a, l. split; [reflexivity|]. split; [exact Sa|]. revert F. apply Forall2_In.
    intros c x Ic. apply In_nth_error in Ic as (j & Hj). apply (Ch (str_of_nat j)). econstructor; eauto.
  - destruct K as (a & l & -> & Sa & F). exists a, l. split; [reflexivity|]. split; [exact Sa|]. revert F. apply Forall2_In.
    intros c x Ic. apply in_map_iff in Ic as ([k c'] & <- & Ic). apply (Ch k). econstructor; eauto.
Qed.
Lemma good_grow t h' : good t -> coherent h' -> grows (s_heap t) h' -> good (with_heap t h').
Proof.
  intros G C' [L D]. constructor; [exact C'| |exact (good_store t G)]. intros m r Cm. destruct (good_link t G m r Cm) as [Bm K].
  split; [cbn; lia|]. unfold linked in *. cbn [with_heap s_heap s_store]. rewrite D by exact Bm. exact K.
Qed.

Lemma setitem_kept h n i v : coherent h -> n < length h -> jwf v = true -> fst (setitem h n i (OVal v)) <> Ok tt ->
  grows h (snd (setitem h n i (OVal v))).
Proof.
  intros C Hn W. destruct (coherent_total h n C Hn) as (x & D). pose proof (any_setitem h n i (OVal v) x v C Hn W D eq_refl) as (h' & r & E & _ & _ & _ & R).
  rewrite E. cbn [fst snd]. destruct (py_set x i v) eqn:P; [congruence|]. intros _.
  pose proof (new_node_grows h v n (index_str i) C Hn W) as G. unfold setitem in E. cbn [operand_value hbind] in E.
  destruct (new_node v h (Some n) (Some (index_str i))) as [h1 c]. cbn [fst] in G.
  assert (Ed : ndata (getn h1 n) = ndata (getn h n)) by (apply G; exact Hn). rewrite Ed in E.
  inversion D as [? En|? b En|? y En|? s En|? ids l En Len _|? m kvs En K _]; subst; rewrite En in E; destruct i as [z|k]; cbn [py_set] in P;
    try (injection E as <- <-; exact G); try discriminate.
  destruct (norm_index (length ids) z) as [j|] eqn:Ej; [|injection E as <- <-; exact G].
  exfalso. rewrite position_norm, <- Len, Ej in P. discriminate.
Qed.

Lemma delitem_kept h n i : (forall c, getitem h n i <> Ok c) -> snd (delitem h n i) = h.
Proof.
  intro N. unfold delitem, getitem in *. destruct (ndata (getn h n)), i; try reflexivity.
  - destruct (norm_index (length ids) z) as [k|] eqn:E; [|reflexivity]. destruct (nth_error ids k) eqn:X; [exfalso; eapply N; reflexivity|].
    apply norm_index_Some in E as [B _]. apply nth_error_None in X. lia.
  - destruct (dget s m); [exfalso; eapply N; reflexivity|reflexivity].
Qed.

Lemma act_good t x : good t -> act_ok t x -> good (act t x) /\ length (s_heap t) <= length (s_heap (act t x)) /\
  exists l, s_store (act t x) = s_store t ++ l.
Proof.
  intros G K. destruct x as [v|n|n i o|n i|n z o]; cbn [act act_ok] in *.
  - destruct (any_new_doc (s_heap t) v (good_heap t G) K) as (h' & -> & C' & L & _ & Gr). cbn [fst].
    split; [now apply good_grow|]. split; [cbn; lia|exists []; cbn; now rewrite app_nil_r].
  - destruct (value_ref_spec t n G K) as (r & u & -> & F & G' & _). cbn [snd]. split; [exact G'|]. split; [now rewrite (proj1 F)|apply F].
  - destruct K as [Hn OK]. destruct (any_operand_total _ o (good_heap t G) OK) as (w & W).
    destruct (operand_content_spec t o w G OK W) as (u & -> & F & G' & Jw). pose proof (proj1 F) as Hu.
    assert (Hn' : n < length (s_heap u)) by (rewrite Hu; exact Hn).
    destruct (coherent_total _ n (good_heap u G') Hn') as (x & D).
    pose proof (setitem_local (s_heap u) n i (OVal w) (good_heap u G') Hn' Jw) as Lo.
    pose proof (setitem_kept (s_heap u) n i w (good_heap u G') Hn' Jw) as Kp.
    destruct (any_setitem (s_heap u) n i (OVal w) x w (good_heap u G') Hn' Jw D eq_refl) as (h' & r & E & C' & L & _ & _).
    rewrite E in *. cbn [fst snd] in *. destruct r as [[]|e|].
    + split; [now apply good_edit|]. split; [cbn; rewrite <- Hu; exact L|apply F].
    + split; [apply good_grow; auto; apply Kp; discriminate|]. split; [cbn; rewrite <- Hu; exact L|apply F].
    + split; [apply good_grow; auto; apply Kp; discriminate|]. split; [cbn; rewrite <- Hu; exact L|apply F].
  - destruct (coherent_total _ n (good_heap t G) K) as (x & D).
    destruct (any_delitem (s_heap t) n i x (good_heap t G) K D) as (h' & r & E & C' & L & _ & _).
    pose proof (delitem_local (s_heap t) n i) as Lo. pose proof (delitem_kept (s_heap t) n i) as Kp. rewrite E in *. cbn [snd] in *.
    destruct (getitem (s_heap t) n i) as [c|e|].
    + split; [now apply good_edit|]. split; [cbn; lia|exists []; cbn; now rewrite app_nil_r].
    + rewrite Kp by (intros c0 X; discriminate X). destruct t as [th tc ts]. cbn. split; [exact G|]. split; [lia|exists []; now rewrite app_nil_r].
    + rewrite Kp by (intros c0 X; discriminate X). destruct t as [th tc ts]. cbn. split; [exact G|]. split; [lia|exists []; now rewrite app_nil_r].
  - destruct K as [Hn OK]. destruct (ndata (getn (s_heap t) n));
      try (split; [exact G|]; split; [lia|exists []; now rewrite app_nil_r]).
    destruct (any_operand_total _ o (good_heap t G) OK) as (w & W).
    destruct (operand_content_spec t o w G OK W) as (u & -> & F & G' & Jw). pose proof (proj1 F) as Hu.
    assert (Hn' : n < length (s_heap u)) by (rewrite Hu; exact Hn).
    destruct (coherent_total _ n (good_heap u G') Hn') as (x & D).
    pose proof (insert_local (s_heap u) n z (OVal w) (good_heap u G') Hn' Jw) as Lo.
    destruct (any_insert (s_heap u) n z (OVal w) x w (good_heap u G') Hn' Jw D eq_refl) as (h' & r & E & C' & L & _ & _).
    rewrite E in *. cbn [snd] in *. split; [now apply good_edit|]. split; [cbn; rewrite <- Hu; exact L|apply F].
Qed.
Lemma good_start : good (mkState [] [] []).
Proof.
  constructor.
  - apply any_history_coherent. constructor.
  - intros n r C. discriminate C.
  - intros a o H. destruct a; discriminate H.
Qed.
Lemma reached_good t : reached t -> good t.
Proof. induction 1 as [|t x H IH K]; [apply good_start|apply act_good; auto]. Qed.
