(** A URI library after RFC 3986: one [urilib] for concrete cases (Suite.v) and
    for what a RemoteSource fetches (PropsRemote.v) and how URIs hash (Hashing.v).

    The code calls the rfc3986 package (uri.py:3-6), which is not part of the
    repository, and no other theorem depends on this file: they hold of every
    [urilib].  Here are the functions as the RFC itself defines them, so that
    cases can be run with the URIs that real schemas have.  Known differences of
    the package: it resolves a reference whose scheme is that of the base as if
    it had none, it raises if the base is not absolute, and it writes
    percent-encodings of characters that a URI may not have. *)
From Coq Require Import String List.
From Verif Require Import Catalog.
Import ListNotations.
Open Scope string_scope.
Open Scope list_scope.
Open Scope N_scope.

(** ** Components, RFC 3986 section 3 and appendix B. *)

Record parts : Set := mkParts { p_scheme : option pystr; p_authority : option pystr; p_path : pystr; p_query : option pystr }.

(** The text up to the first character in [stop], and the rest from it on. *)
Fixpoint upto (stop : list N) (s : pystr) : pystr * pystr :=
  match s with
  | [] => ([], [])
  | c :: r => if existsb (N.eqb c) stop then ([], s) else let '(a, b) := upto stop r in (c :: a, b)
  end.
Definition alpha (c : N) : bool := (65 <=? c) && (c <=? 90) || (97 <=? c) && (c <=? 122).
Definition digit (c : N) : bool := (48 <=? c) && (c <=? 57).
Definition scheme_char (c : N) : bool := alpha c || digit c || (c =? 43) || (c =? 45) || (c =? 46).
Definition is_scheme (s : pystr) : bool := match s with c :: r => alpha c && forallb scheme_char r | [] => false end.
(** A colon, slash, question mark, number sign. *)
Definition split_scheme (s : pystr) : option pystr * pystr :=
  match upto [58; 47; 63; 35] s with
  | (a, 58 :: r) => if is_scheme a then (Some a, r) else (None, s)
  | _ => (None, s)
  end.
Definition split_authority (s : pystr) : option pystr * pystr :=
  match s with
  | 47 :: 47 :: r => let '(a, rest) := upto [47; 63; 35] r in (Some a, rest)
  | _ => (None, s)
  end.
Definition split_parts (s : pystr) : parts :=
  let '(scheme, s) := split_scheme s in
  let '(authority, s) := split_authority s in
  match upto [63] s with
  | (path, 63 :: q) => mkParts scheme authority path (Some q)
  | (path, _) => mkParts scheme authority path None
  end.
(** Section 5.3. *)
Definition join_parts (p : parts) : pystr :=
  match p_scheme p with Some s => s ++ [58] | None => [] end ++
  match p_authority p with Some a => 47 :: 47 :: a | None => [] end ++
  p_path p ++
  match p_query p with Some q => 63 :: q | None => [] end.

Definition parse_uri_reference (s : pystr) : uri :=
  match upto [35] s with
  | (b, 35 :: f) => mkUri b (Some f)
  | (b, _) => mkUri b None
  end.

(** ** Resolution, section 5.2. *)

(** The path in segments: 5.2.4 with the segments that remain in [out], the
    last one first.  Each segment is what stands between two slashes. *)
Fixpoint drop_dots (out segments : list pystr) : list pystr :=
  match segments with
  | [] => rev out
  | s :: r =>
      if str_eqb s (lit ".") then drop_dots (match r with [] => [] :: out | _ => out end) r
      else if str_eqb s (lit "..") then drop_dots (match r with [] => [] :: tl out | _ => tl out end) r
      else drop_dots (s :: out) r
  end.
Fixpoint join_slash (l : list pystr) : pystr :=
  match l with [] => [] | [s] => s | s :: r => s ++ 47 :: join_slash r end.
Definition remove_dot_segments (path : pystr) : pystr :=
  match path with
  | [] => []
  | 47 :: r => 47 :: join_slash (drop_dots [] (split_char 47 r))
  | _ => join_slash (drop_dots [] (split_char 47 path))
  end.
(** 5.2.3. *)
Definition after_last_slash (path : pystr) : pystr := rev (snd (upto [47] (rev path))).
Definition merge_path (base : parts) (path : pystr) : pystr :=
  match p_authority base, p_path base with
  | Some _, [] => 47 :: path
  | _, b => after_last_slash b ++ path
  end.
(** 5.2.2. *)
Definition resolve_parts (r b : parts) : parts :=
  match p_scheme r with
  | Some s => mkParts (Some s) (p_authority r) (remove_dot_segments (p_path r)) (p_query r)
  | None =>
      match p_authority r with
      | Some a => mkParts (p_scheme b) (Some a) (remove_dot_segments (p_path r)) (p_query r)
      | None =>
          match p_path r with
          | [] => mkParts (p_scheme b) (p_authority b) (p_path b) (match p_query r with Some q => Some q | None => p_query b end)
          | 47 :: _ => mkParts (p_scheme b) (p_authority b) (remove_dot_segments (p_path r)) (p_query r)
          | path => mkParts (p_scheme b) (p_authority b) (remove_dot_segments (merge_path b path)) (p_query r)
          end
      end
  end.
Definition resolve_uri (r b : uri) : uri :=
  mkUri (join_parts (resolve_parts (split_parts (u_base r)) (split_parts (u_base b)))) (u_frag r).

(** ** Which texts are URI references, and which are normalized. *)

(** Section 2: unreserved characters, sub-delims. *)
Definition unreserved (c : N) : bool := alpha c || digit c || existsb (N.eqb c) (lit "-._~").
Definition sub_delim (c : N) : bool := existsb (N.eqb c) (lit "!$&'()*+,;=").
Definition hexdigit (c : N) : bool := digit c || (65 <=? c) && (c <=? 70) || (97 <=? c) && (c <=? 102).
(** Characters of [ok] and percent-encodings. *)
Fixpoint made_of (ok : N -> bool) (s : pystr) : bool :=
  match s with
  | [] => true
  | 37 :: a :: b :: r => hexdigit a && hexdigit b && made_of ok r
  | c :: r => ok c && made_of ok r
  end.
Definition pchar (c : N) : bool := unreserved c || sub_delim c || (c =? 58) || (c =? 64).
Definition conforms (u : uri) : bool :=
  let p := split_parts (u_base u) in
  match p_authority p with
  | Some a => made_of (fun c => pchar c || (c =? 91) || (c =? 93)) a
  | None => negb (prefixb (lit "//") (p_path p))
  end
  && made_of (fun c => pchar c || (c =? 47)) (p_path p)
  && match p_query p with Some q => made_of (fun c => pchar c || (c =? 47) || (c =? 63)) q | None => true end
  && match u_frag u with Some f => made_of (fun c => pchar c || (c =? 47) || (c =? 63)) f | None => true end.
Definition lower (c : N) : N := if (65 <=? c) && (c <=? 90) then c + 32 else c.
Definition upper (c : N) : N := if (97 <=? c) && (c <=? 122) then c - 32 else c.
Fixpoint upper_escapes (s : pystr) : pystr :=
  match s with
  | 37 :: a :: b :: r => 37 :: upper a :: upper b :: upper_escapes r
  | c :: r => c :: upper_escapes r
  | [] => []
  end.
(** Section 6.2.2. *)
Definition normalize (u : uri) : uri :=
  let p := split_parts (u_base u) in
  mkUri (join_parts (mkParts (option_map (map lower) (p_scheme p)) (option_map (map lower) (p_authority p))
                             (remove_dot_segments (upper_escapes (p_path p))) (option_map upper_escapes (p_query p))))
        (option_map upper_escapes (u_frag u)).
Definition has_scheme (u : uri) : bool := match p_scheme (split_parts (u_base u)) with Some _ => true | None => false end.

Definition rfc3986 : urilib :=
  mkLib parse_uri_reference resolve_uri
    (fun u => has_scheme u && match u_frag u with None => true | Some _ => false end && conforms u)
    conforms has_scheme (fun u => uri_eqb u (normalize u)) (fun u => p_path (split_parts (u_base u)))
    (fun u v => uri_eqb (normalize u) (normalize v)).

(** ** Checks. *)

Lemma upto_join stop s : forall a b, upto stop s = (a, b) -> a ++ b = s.
Proof.
  induction s as [|c r IH]; intros a b H; cbn in H; [injection H as <- <-; reflexivity|]. destruct (existsb _ stop); [injection H as <- <-; reflexivity|].
  destruct (upto stop r) as [a' b'] eqn:U. injection H as <- <-. cbn. now rewrite (IH _ _ eq_refl).
Qed.
(** Taking a text apart and putting it together again gives the text. *)
Lemma join_split s : join_parts (split_parts s) = s.
Proof.
  unfold split_parts. destruct (split_scheme s) as [sc s1] eqn:A. destruct (split_authority s1) as [au s2] eqn:B.
  assert (H1 : match sc with Some x => x ++ [58] | None => [] end ++ s1 = s).
  { unfold split_scheme in A. destruct (upto [58; 47; 63; 35] s) as [a b] eqn:U. pose proof (upto_join _ _ _ _ U) as J.
    destruct b as [|x b]; [injection A as <- <-; reflexivity|]. destruct (N.eqb_spec x 58) as [->|Hx].
    - destruct (is_scheme a); injection A as <- <-; [|reflexivity]. rewrite <- app_assoc. exact J.
    - assert (A' : (None, s) = (sc, s1)). { rewrite <- A. destruct x as [|x]; [reflexivity|]. do 6 (destruct x as [x|x|]; try reflexivity). congruence. }
      injection A' as <- <-. reflexivity. }
  assert (H2 : match au with Some x => 47 :: 47 :: x | None => [] end ++ s2 = s1).
  { unfold split_authority in B.
    assert (G : (exists r, s1 = 47 :: 47 :: r /\ (let '(a, rest) := upto [47; 63; 35] r in (Some a, rest)) = (au, s2)) \/ (None, s1) = (au, s2)).
    { destruct s1 as [|x s1]; [now right|]. destruct (N.eqb_spec x 47) as [->|Hx].
      - destruct s1 as [|y s1]; [now right|]. destruct (N.eqb_spec y 47) as [->|Hy]; [left; now exists s1|]. right. rewrite <- B.
        destruct y as [|y]; [reflexivity|]. do 6 (destruct y as [y|y|]; try reflexivity). congruence.
      - right. rewrite <- B. destruct x as [|x]; [reflexivity|]. do 6 (destruct x as [x|x|]; try reflexivity). congruence. }
    destruct G as [(r & -> & G)|G]; [|injection G as <- <-; reflexivity]. destruct (upto [47; 63; 35] r) as [a b] eqn:U. injection G as <- <-.
    cbn. now rewrite (upto_join _ _ _ _ U). }
  destruct (upto [63] s2) as [path q] eqn:U. pose proof (upto_join _ _ _ _ U) as J.
  assert (H3 : join_parts (match q with 63 :: q => mkParts sc au path (Some q) | _ => mkParts sc au path None end) =
               match sc with Some x => x ++ [58] | None => [] end ++ match au with Some x => 47 :: 47 :: x | None => [] end ++ s2).
  { assert (Q : q = [] \/ exists r, q = 63 :: r).
    { clear -U. revert path q U. induction s2 as [|c r IH]; intros path q U; cbn in U; [injection U as <- <-; now left|].
      rewrite orb_false_r in U. destruct (N.eqb_spec c 63) as [->|]; [injection U as <- <-; right; eauto|]. destruct (upto [63] r) as [a b]. injection U as <- <-. eauto. }
    destruct Q as [->|[r ->]]; unfold join_parts; cbn [p_scheme p_authority p_path p_query]; now rewrite J. }
  rewrite <- H1, <- H2, <- H3. now destruct q as [|x q].
Qed.

(** The examples of section 5.4. *)
Definition resolved (r : string) : pystr :=
  uri_str (resolve_uri (parse_uri_reference (lit r)) (parse_uri_reference (lit "http://a/b/c/d;p?q"))).
Example rfc_5_4_1 :
  map resolved
    ["g:h"; "g"; "./g"; "g/"; "/g"; "//g"; "?y"; "g?y"; "#s"; "g#s"; "g?y#s";
     ";x"; "g;x"; "g;x?y#s"; ""; "."; "./"; ".."; "../"; "../g"; "../.."; "../../"; "../../g"]
  = map lit
    ["g:h"; "http://a/b/c/g"; "http://a/b/c/g"; "http://a/b/c/g/"; "http://a/g"; "http://g"; "http://a/b/c/d;p?y"; "http://a/b/c/g?y";
     "http://a/b/c/d;p?q#s"; "http://a/b/c/g#s"; "http://a/b/c/g?y#s"; "http://a/b/c/;x"; "http://a/b/c/g;x"; "http://a/b/c/g;x?y#s";
     "http://a/b/c/d;p?q"; "http://a/b/c/"; "http://a/b/c/"; "http://a/b/"; "http://a/b/"; "http://a/b/g"; "http://a/"; "http://a/"; "http://a/g"].
Proof. vm_compute. reflexivity. Qed.
Example rfc_5_4_2 :
  map resolved
    ["../../../g"; "../../../../g"; "/./g"; "/../g"; "g."; ".g"; "g.."; "..g"; "./../g"; "./g/."; "g/./h"; "g/../h"; "g;x=1/./y"; "g;x=1/../y";
     "g?y/./x"; "g?y/../x"; "g#s/./x"; "g#s/../x"; "http:g"]
  = map lit
    ["http://a/g"; "http://a/g"; "http://a/g"; "http://a/g"; "http://a/b/c/g."; "http://a/b/c/.g"; "http://a/b/c/g.."; "http://a/b/c/..g"; "http://a/b/g";
     "http://a/b/c/g/"; "http://a/b/c/g/h"; "http://a/b/c/h"; "http://a/b/c/g;x=1/y"; "http://a/b/c/y"; "http://a/b/c/g?y/./x"; "http://a/b/c/g?y/../x";
     "http://a/b/c/g#s/./x"; "http://a/b/c/g#s/../x"; "http:g"].
Proof. vm_compute. reflexivity. Qed.
