(** C50, exactly: what a construction or a lookup leaves in the caches. *)
From Coq Require Import String List Bool Lia.
From Verif Require Import SchemaCases BuildLeaves PropsBuild.
Import ListNotations.
Open Scope string_scope.
Open Scope list_scope.
Open Scope nat_scope.

(** However a construction ends, an entry of the caches is as it was before,
    or it is in the cache of the new schema and leads to an object made
    meanwhile, or it is gone, and then it was the entry for the URI given to
    the constructor (or for one made up). Objects made before are as they
    were. *)
Theorem C50_leaves : forall E f id v u m c, reads_json E -> jwf v = true -> sane c ->
  let c' := snd (construct E f id v u m c) in
  (forall i, i < size c -> nth_error (c_objs c') i = nth_error (c_objs c) i) /\
  forall id' u', cached id' u' (c_cache c') = cached id' u' (c_cache c) \/
    (id' = id /\ exists s, size c <= s < size c' /\ cached id u' (c_cache c') = Some s) \/
    (id' = id /\ cached id u' (c_cache c') = None /\ (u = Some u' \/ exists s, size c <= s /\ u' = e_uuid E s)).
Proof.
  intros E f id v u m c R J S c'. split; [exact (proj2 (construct_stays E R f id v u m c J S))|].
  destruct (construct_alone E R id f v u m c J S) as [Al _]. destruct (Al (proj1 (proj2 (proj2 S)))) as [_ Other]. clear Al.
  destruct (wrote_construct E (size c) f (wrote_resolve E (size c) R f) id v u m J c (le_n _) (proj1 (proj2 (proj2 S)))) as (_ & _ & W). fold c' in Other, W.
  intros id' u'. destruct (str_eqb_spec id' id) as [->|D]; [|left; now apply Other].
  destruct (W id u') as [Q|[Q|[Q L]]]; [auto|auto|]. right; right. split; [reflexivity|]. split; [exact Q|]. destruct L as [[_ L]|L]; auto.
Qed.
Print Assumptions C50_leaves.

(** A lookup loses no entry (but for URIs made up). *)
Theorem C50_leaves_lookup : forall E f id u m c, reads_json E -> sane c ->
  let c' := snd (get_schema E f id u m c) in
  (forall i, i < size c -> nth_error (c_objs c') i = nth_error (c_objs c) i) /\
  forall id' u', cached id' u' (c_cache c') = cached id' u' (c_cache c) \/
    (id' = id /\ exists s, size c <= s < size c' /\ cached id u' (c_cache c') = Some s) \/
    (id' = id /\ cached id u' (c_cache c') = None /\ exists s, size c <= s /\ u' = e_uuid E s).
Proof.
  intros E f id u m c R S c'. split; [exact (proj2 (get_stays E R f id u m c S))|].
  destruct (get_alone E R id f u m c S) as [Al _]. destruct (Al (proj1 (proj2 (proj2 S)))) as [_ Other]. clear Al.
  destruct (wrote_get E (size c) R f (wrote_resolve E (size c) R f) id u m c (le_n _) (proj1 (proj2 (proj2 S)))) as (_ & _ & W). fold c' in Other, W.
  intros id' u'. destruct (str_eqb_spec id' id) as [->|D]; [|left; now apply Other].
  destruct (W id u') as [Q|[Q|[Q L]]]; auto.
Qed.
Print Assumptions C50_leaves_lookup.

(** Each of the cases occurs. A schema is in the cache under a URI; to
    construct another with the same URI, which gives itself a different one
    and has a reference that leads nowhere, raises an error; now the first is
    no longer found, and under the other URI there is the broken one. *)
Definition E50 : env := env_of [("http://a/z", obj [("$id", text "http://a/x"); ("$ref", text "#/nope")])] [].
Definition c50 : cat := snd (construct E50 9 default (obj [("minLength", int 1)]) (Some (at_ "http://a/x")) (Some META) empty).
Example C50_case_leaves :
  reads_json E50 /\ cached default (at_ "http://a/x") (c_cache c50) = Some 0 /\
  let r := construct E50 9 default (obj [("$id", text "http://a/y"); ("$ref", text "#/nope")]) (Some (at_ "http://a/x")) (Some META) c50 in
  fst r = Exn ECatalog /\ cached default (at_ "http://a/x") (c_cache (snd r)) = None /\ cached default (at_ "http://a/y") (c_cache (snd r)) = Some 1 /\
  (* Looking up a document that says it is the first schema replaces it. *)
  let r' := get_schema E50 9 default (at_ "http://a/z") (Some META) c50 in
  fst r' = Exn ECatalog /\ cached default (at_ "http://a/x") (c_cache (snd r')) = Some 1 /\ cached default (at_ "http://a/z") (c_cache (snd r')) = None.
Proof. split; [now apply shelf_reads|]. vm_compute. repeat split. Qed.
