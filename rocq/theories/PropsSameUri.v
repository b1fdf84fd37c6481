(** Property C51, continued: a document whose $id is the URI it was given,
    written otherwise.  The setter of JSONSchema.uri (jsonschema.py:307-316)
    compares URIs up to normalization, the cache (a dict) does not. *)
From Coq Require Import String List Bool Lia.
From Verif Require Import SchemaCases QuoteFacts BuildStays Rfc3986 PropsBuild.
Import ListNotations.
Open Scope string_scope.
Open Scope list_scope.
Open Scope nat_scope.

Definition E_real : env :=
  mkEnv rfc3986 [] [] (fun _ => None) (fun u => if uri_eqb u META then Some dialect_2020_12 else None) (fun _ => true)
    (fun n => parse_uri_reference (lit "urn:uuid:" ++ str_of_nat n)).
(** A document that refers to itself by its $id. *)
Definition self_named : json :=
  obj [("$id", text "HTTP://a/s"); ("$defs", obj [("x", JBool true)]); ("$ref", text "HTTP://a/s#/$defs/x")].

(** Given no URI, it is made, and found under its $id.  Given the same URI in
    normal form, it keeps that one; nothing is found under its $id, so its own
    reference is not resolved and construction fails. *)
Theorem C51_rewritten_refuted : reads_json E_real /\ jwf self_named = true /\
  ul_same rfc3986 (at_ "http://a/s") (at_ "HTTP://a/s") = true /\
  (let r := construct E_real 9 default self_named None (Some META) empty in
   fst r = Ok 0 /\ cached default (at_ "HTTP://a/s") (c_cache (snd r)) = Some 0) /\
  (let r := construct E_real 9 default self_named (Some (at_ "http://a/s")) (Some META) empty in
   fst r = Exn ECatalog /\ own_uri E_real (Some (at_ "http://a/s")) None (match self_named with JObj m => m | _ => [] end) = Some (at_ "http://a/s") /\
   map so_uri (c_objs (snd r)) = [Some (at_ "http://a/s"); None] /\
   cached default (at_ "http://a/s") (c_cache (snd r)) = Some 0 /\ cached default (at_ "HTTP://a/s") (c_cache (snd r)) = None).
Proof.
  split; [|vm_compute; auto 20]. intros u doc H. unfold load_json in H. destruct (or_catalog_error _) as [[]| |]; discriminate H.
Qed.
Print Assumptions C51_rewritten_refuted.
