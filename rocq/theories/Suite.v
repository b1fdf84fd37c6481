(** The repository's own tests, run on the model by computation.

    /repo/tests has, besides randomized tests, tests with fixed data.  Here
    (and in SuiteSchema.v, SuiteOutput.v) the data of these tests stands as
    JSON text, as in the test files, and the model is run on it.  No theorem
    depends on this; it is a check that the model does what the code is tested
    to do.  The URI functions are those of Rfc3986.v and the float functions
    those of Double.v. *)
From Coq Require Import String List Bool ZArith.
From Verif Require Export Rfc3986 Text Double Meta Output Locate ReadBack Patch RelPointer SpecCaches.
Import ListNotations.
Open Scope string_scope.
Open Scope list_scope.
Open Scope nat_scope.

Definition parsed (s : string) : res json := json_loads doubles (lit s).
(** [JNull] if it is not JSON; the checks below would then fail. *)
Definition given (s : string) : json := match parsed s with Ok v => v | _ => JNull end.
Definition member_of (k : string) (v : json) : json := match v with JObj m => match dget (lit k) m with Some x => x | None => JNull end | _ => JNull end.
Definition elements (v : json) : list json := match v with JArr l => l | _ => [] end.
Definition entries (v : json) : list (pystr * json) := match v with JObj m => m | _ => [] end.
Definition text_of (v : json) : pystr := match v with JStr s => s | _ => [] end.
Definition nth_of (n : nat) (v : json) : json := nth n (elements v) JNull.
(** There are cases, and all of them pass. *)
Definition all_pass (f : json -> bool) (l : list json) : bool := match l with [] => false | _ => forallb f l end.

(** ** tests/test_jsonpointer.py *)

(** test_evaluate_relative_jsonpointer, with tests/data/relative_jsonpointer.json. *)
Definition rel_check (data test : json) : bool :=
  let '(h, n) := new_doc data [] in
  match parse_pointer (text_of (member_of "start" test)), parse_rel (text_of (member_of "ref" test)) with
  | Ok start, Ok ref =>
      match eval_id start h n with
      | Ok node =>
          let expected := member_of "result" test in
          if json_eqb expected (JStr (lit "<fail>"))
          then match rel_eval ref h node with Exn ERelReference => true | _ => false end
          else match rel_eval ref h node with
               | Ok (RVIndex z) => json_eqb (JNum (NInt z)) expected
               | Ok (RVKey k) => json_eqb (JStr k) expected
               | Ok (RVNode t) => match fst (read_value h t) with
                                  | Ok v => json_eqb v (if json_eqb expected (JStr (lit "<data>")) then data else expected)
                                  | _ => false
                                  end
               | _ => false
               end
      | _ => false
      end
  | _, _ => false
  end.
Definition rel_examples : json := given
"[
    {
        ""data"": {
            ""foo"": [""bar"", ""baz""],
            ""highly"": {
                ""nested"": {
                    ""objects"": true
                }
            }
        },
        ""tests"": [
            {
                ""start"": ""/foo/1"",
                ""ref"": ""0"",
                ""result"": ""baz""
            },
            {
                ""start"": ""/foo/1"",
                ""ref"": ""1/0"",
                ""result"": ""bar""
            },
            {
                ""start"": ""/foo/1"",
                ""ref"": ""2/highly/nested/objects"",
                ""result"": true
            },
            {
                ""start"": ""/foo/1"",
                ""ref"": ""0#"",
                ""result"": 1
            },
            {
                ""start"": ""/foo/1"",
                ""ref"": ""1#"",
                ""result"": ""foo""
            },
            {
                ""start"": ""/highly/nested"",
                ""ref"": ""0/objects"",
                ""result"": true
            },
            {
                ""start"": ""/highly/nested"",
                ""ref"": ""1/nested/objects"",
                ""result"": true
            },
            {
                ""start"": ""/highly/nested"",
                ""ref"": ""2/foo/0"",
                ""result"": ""bar""
            },
            {
                ""start"": ""/highly/nested"",
                ""ref"": ""0#"",
                ""result"": ""nested""
            },
            {
                ""start"": ""/highly/nested"",
                ""ref"": ""1#"",
                ""result"": ""highly""
            }
        ]
    },
    {
        ""data"": {
            ""test"": [""foo"", ""bar""],
            ""child"": {
                ""grandchild"": 12345
            },
            ""sibling"": ""sibling value"",
            ""awkwardly/named~variable"": true
        },
        ""tests"": [
            {
                ""start"": ""/test/1"",
                ""ref"": ""0"",
                ""result"": ""bar""
            },
            {
                ""start"": ""/test/1"",
                ""ref"": ""0#"",
                ""result"": 1
            },
            {
                ""start"": ""/test/1"",
                ""ref"": ""1"",
                ""result"": [""foo"", ""bar""]
            },
            {
                ""start"": ""/test/1"",
                ""ref"": ""1/0"",
                ""result"": ""foo""
            },
            {
                ""start"": ""/test/1"",
                ""ref"": ""1/1"",
                ""result"": ""bar""
            },
            {
                ""start"": ""/test/1"",
                ""ref"": ""1#"",
                ""result"": ""test""
            },
            {
                ""start"": ""/test/1"",
                ""ref"": ""2"",
                ""result"": ""<data>""
            },
            {
                ""start"": ""/test/1"",
                ""ref"": ""2#"",
                ""result"": ""<fail>""
            },
            {
                ""start"": ""/test/1"",
                ""ref"": ""3"",
                ""result"": ""<fail>""
            },
            {
                ""start"": ""/child/grandchild"",
                ""ref"": ""0"",
                ""result"": 12345
            },
            {
                ""start"": ""/child/grandchild"",
                ""ref"": ""0#"",
                ""result"": ""grandchild""
            },
            {
                ""start"": ""/child/grandchild"",
                ""ref"": ""1"",
                ""result"": {""grandchild"": 12345}
            },
            {
                ""start"": ""/child/grandchild"",
                ""ref"": ""1/grandchild"",
                ""result"": 12345
            },
            {
                ""start"": ""/child/grandchild"",
                ""ref"": ""1#"",
                ""result"": ""child""
            },
            {
                ""start"": ""/child/grandchild"",
                ""ref"": ""2"",
                ""result"": ""<data>""
            },
            {
                ""start"": ""/child/grandchild"",
                ""ref"": ""2/sibling"",
                ""result"": ""sibling value""
            },
            {
                ""start"": ""/child/grandchild"",
                ""ref"": ""2/test/1"",
                ""result"": ""bar""
            },
            {
                ""start"": ""/child"",
                ""ref"": ""0"",
                ""result"": {""grandchild"": 12345}
            },
            {
                ""start"": ""/child"",
                ""ref"": ""0#"",
                ""result"": ""child""
            },
            {
                ""start"": ""/child"",
                ""ref"": ""0/grandchild"",
                ""result"": 12345
            },
            {
                ""start"": ""/child"",
                ""ref"": ""1/sibling"",
                ""result"": ""sibling value""
            },
            {
                ""start"": ""/child"",
                ""ref"": ""1"",
                ""result"": ""<data>""
            },
            {
                ""start"": ""/child"",
                ""ref"": ""2"",
                ""result"": ""<fail>""
            },
            {
                ""start"": ""/sibling"",
                ""ref"": ""0"",
                ""result"": ""sibling value""
            },
            {
                ""start"": ""/sibling"",
                ""ref"": ""0#"",
                ""result"": ""sibling""
            },
            {
                ""start"": ""/sibling"",
                ""ref"": ""1"",
                ""result"": ""<data>""
            },
            {
                ""start"": ""/sibling"",
                ""ref"": ""1/awkwardly~1named~0variable"",
                ""result"": true
            },
            {
                ""start"": ""/awkwardly~1named~0variable"",
                ""ref"": ""0"",
                ""result"": true
            },
            {
                ""start"": ""/awkwardly~1named~0variable"",
                ""ref"": ""0#"",
                ""result"": ""awkwardly/named~variable""
            }
        ]
    },
    {
        ""data"": [
            ""foo"",
            ""bar"",
            {""baz"": ""value""}
        ],
        ""tests"": [
            {
                ""start"": ""/0"",
                ""ref"": ""0+1"",
                ""result"": ""bar""
            },
            {
                ""start"": ""/1"",
                ""ref"": ""0-1#"",
                ""result"": 0
            },
            {
                ""start"": ""/0"",
                ""ref"": ""0+2/baz"",
                ""result"": ""value""
            },
            {
                ""start"": ""/2/baz"",
                ""ref"": ""1-2"",
                ""result"": ""foo""
            },
            {
                ""start"": ""/2/baz"",
                ""ref"": ""1+1"",
                ""result"": ""<fail>""
            },
            {
                ""start"": ""/2/baz"",
                ""ref"": ""0+1"",
                ""result"": ""<fail>""
            },
            {
                ""start"": ""/1"",
                ""ref"": ""0-2"",
                ""result"": ""<fail>""
            },
            {
                ""start"": ""/0"",
                ""ref"": ""1+1/2/baz"",
                ""result"": ""<fail>""
            },
            {
                ""start"": ""/0"",
                ""ref"": ""0/anything"",
                ""result"": ""<fail>""
            }
        ]
    }
]".
Example suite_relative_jsonpointer : all_pass (fun e => all_pass (rel_check (member_of "data" e)) (elements (member_of "tests" e))) (elements rel_examples) = true.
Proof. vm_compute. reflexivity. Qed.

(** test_malformed_jsonpointer, test_malformed_relative_jsonpointer,
    test_uri_fragment_safe_characters. *)
Example suite_malformed : parse_pointer (lit "0/foo") = Exn EPointerMalformed /\ parse_rel (lit "/bar") = Exn ERelMalformed.
Proof. vm_compute. split; reflexivity. Qed.
Example suite_fragment : (let* p := parse_pointer (lit "/!$&'()*+,;=") in uri_fragment p) = Ok (lit "/!$&'()*+,;=").
Proof. vm_compute. reflexivity. Qed.

(** ** tests/test_jsonpatch.py *)

(** test_example, with tests/data/jsonpatch.json; that the document stays as it
    is, is C19. *)
Definition patch_check (e : json) : bool :=
  match mk_patch (map entries (elements (member_of "patch" e))) with
  | Ok ops =>
      match patch_apply ops (member_of "document" e), member_of "result" e with
      | Exn EPatch, JNull => true
      | Ok v, expected => json_eqb v expected && negb (is_null expected)
      | _, _ => false
      end
  | _ => false
  end.
Definition patch_examples : json := given
"[
    {
        ""description"": ""Adding an Object Member"",
        ""document"": {
            ""foo"": ""bar""
        },
        ""patch"": [
            {""op"": ""add"", ""path"": ""/baz"", ""value"": ""qux""}
        ],
        ""result"": {
            ""baz"": ""qux"",
            ""foo"": ""bar""
        }
    },
    {
        ""description"": ""Adding an Array Element"",
        ""document"": {
            ""foo"": [""bar"", ""baz""]
        },
        ""patch"": [
            {""op"": ""add"", ""path"": ""/foo/1"", ""value"": ""qux""}
        ],
        ""result"": {
            ""foo"": [""bar"", ""qux"", ""baz""]
        }
    },
    {
        ""description"": ""Removing an Object Member"",
        ""document"": {
            ""baz"": ""qux"",
            ""foo"": ""bar""
        },
        ""patch"": [
            {""op"": ""remove"", ""path"": ""/baz""}
        ],
        ""result"": {
            ""foo"": ""bar""
        }
    },
    {
        ""description"": ""Removing an Array Element"",
        ""document"": {
            ""foo"": [""bar"", ""qux"", ""baz""]
        },
        ""patch"": [
            {""op"": ""remove"", ""path"": ""/foo/1""}
        ],
        ""result"": {
            ""foo"": [""bar"", ""baz""]
        }
    },
    {
        ""description"": ""Replacing a Value"",
        ""document"": {
            ""baz"": ""qux"",
            ""foo"": ""bar""
        },
        ""patch"": [
            {""op"": ""replace"", ""path"": ""/baz"", ""value"": ""boo""}
        ],
        ""result"": {
            ""baz"": ""boo"",
            ""foo"": ""bar""
        }
    },
    {
        ""description"": ""Moving a Value"",
        ""document"": {
            ""foo"": {
                ""bar"": ""baz"",
                ""waldo"": ""fred""
            },
            ""qux"": {
                ""corge"": ""grault""
            }
        },
        ""patch"": [
            {""op"": ""move"", ""from"": ""/foo/waldo"", ""path"": ""/qux/thud""}
        ],
        ""result"": {
            ""foo"": {
                ""bar"": ""baz""
            },
            ""qux"": {
                ""corge"": ""grault"",
                ""thud"": ""fred""
            }
        }
    },
    {
        ""description"": ""Moving an Array Element"",
        ""document"": {
            ""foo"": [""all"", ""grass"", ""cows"", ""eat""]
        },
        ""patch"": [
            {""op"": ""move"", ""from"": ""/foo/1"", ""path"": ""/foo/3""}
        ],
        ""result"": {
            ""foo"": [""all"", ""cows"", ""eat"", ""grass""]
        }
    },
    {
        ""description"": ""Testing a Value: Success"",
        ""document"": {
            ""baz"": ""qux"",
            ""foo"": [""a"", 2, ""c""]
        },
        ""patch"": [
            {""op"": ""test"", ""path"": ""/baz"", ""value"": ""qux""},
            {""op"": ""test"", ""path"": ""/foo/1"", ""value"": 2}
        ],
        ""result"": {
            ""baz"": ""qux"",
            ""foo"": [""a"", 2, ""c""]
        }
    },
    {
        ""description"": ""Testing a Value: Error"",
        ""document"": {
            ""baz"": ""qux""
        },
        ""patch"": [
            {""op"": ""test"", ""path"": ""/baz"", ""value"": ""bar""}
        ],
        ""result"": null
    },
    {
        ""description"": ""Adding a Nested Member Object"",
        ""document"": {
            ""foo"": ""bar""
        },
        ""patch"": [
            {""op"": ""add"", ""path"": ""/child"", ""value"": {""grandchild"": {}}}
        ],
        ""result"": {
            ""foo"": ""bar"",
            ""child"": {
                ""grandchild"": {}
            }
        }
    },
    {
        ""description"": ""Ignoring Unrecognized Elements"",
        ""document"": {
            ""foo"": ""bar""
        },
        ""patch"": [
            {""op"": ""add"", ""path"": ""/baz"", ""value"": ""qux"", ""xyz"": 123}
        ],
        ""result"": {
            ""foo"": ""bar"",
            ""baz"": ""qux""
        }
    },
    {
        ""description"": ""Adding to a Nonexistent Target"",
        ""document"": {
            ""foo"": ""bar""
        },
        ""patch"": [
            {""op"": ""add"", ""path"": ""/baz/bat"", ""value"": ""qux""}
        ],
        ""result"": null
    },
    {
        ""description"": ""~ Escape Ordering"",
        ""document"": {
            ""/"": 9,
            ""~1"": 10
        },
        ""patch"": [
            {""op"": ""test"", ""path"": ""/~01"", ""value"": 10}
        ],
        ""result"": {
            ""/"": 9,
            ""~1"": 10
        }
    },
    {
        ""description"": ""Comparing Strings and Numbers"",
        ""document"": {
            ""/"": 9,
            ""~1"": 10
        },
        ""patch"": [
            {""op"": ""test"", ""path"": ""/~01"", ""value"": ""10""}
        ],
        ""result"": null
    },
    {
        ""description"": ""Adding an Array Value"",
        ""document"": {
            ""foo"": [""bar""]
        },
        ""patch"": [
            {""op"": ""add"", ""path"": ""/foo/-"", ""value"": [""abc"", ""def""]}
        ],
        ""result"": {
            ""foo"": [""bar"", [""abc"", ""def""]]
        }
    }
]".
Example suite_jsonpatch : all_pass patch_check (elements patch_examples) = true.
Proof. vm_compute. reflexivity. Qed.

(** ** Schemas: the catalog of the fixture in tests/conftest.py. *)

(** create_catalog('2019-09', '2020-12', 'next'); the meta-schemas are the
    dialects of Keywords.v. *)
Definition draft_uri (s : string) : uri := parse_uri_reference (lit "https://json-schema.org/draft/" ++ lit s ++ lit "/schema").
Definition dialect_at (u : uri) : option (list stdclass) :=
  if uri_eqb u (draft_uri "2019-09") then Some dialect_2019_09
  else if uri_eqb u (draft_uri "2020-12") then Some dialect_2020_12
  else if uri_eqb u (draft_uri "next") then Some dialect_next
  else None.
Definition suite_env : env :=
  mkEnv rfc3986 [] [] (fun _ => None) dialect_at (fun _ => true) (fun n => parse_uri_reference (lit "urn:uuid:" ++ str_of_nat n)).

(** The regular expressions that occur: characters, one class, plus, and a
    circumflex at the beginning. *)
Fixpoint pattern_body (s : pystr) : regex :=
  match s with
  | [] => REps
  | 91%N :: a :: 45%N :: b :: 93%N :: r => RCat (RClass false [(a, b)]) (pattern_body r)
  | c :: 43%N :: r => RCat (RCat (rchar c) (RStar (rchar c))) (pattern_body r)
  | c :: r => RCat (rchar c) (pattern_body r)
  end.
Definition anything : regex := RStar (RClass true []).
Definition search (p s : pystr) : option bool :=
  Some (match p with
        | 94%N :: r => fullmatch (RCat (pattern_body r) anything) s
        | _ => fullmatch (RCat anything (RCat (pattern_body p) anything)) s
        end).
Definition suite_world (c : cat) : world :=
  cache_world rfc3986 (lit "default") (mkWorld (fun _ => SBool true) (fun _ => None) (fun _ _ => None) search repr_decimal (fun _ _ => true) (fun _ _ => [])) c.

(** JSONSchema(v, metaschema_uri=...), in the catalog [c]. *)
Definition schema_in (c : cat) (draft : option string) (v : json) : res (sid * cat) :=
  match construct suite_env 40 (lit "default") v None (option_map draft_uri draft) c with
  | (Ok s, c') => Ok (s, c')
  | (Exn e, _) => Exn e
  | (Fuel, _) => Fuel
  end.
Definition schema_of := schema_in (mkCat [] []).
(** schema.evaluate(JSON(x)). *)
Definition evaluated (sc : sid * cat) (x : json) : res rnode := evaluate_root (suite_world (snd sc)) 60 (fst sc) (mkInst [] x).
Definition valid_is (b : bool) (r : res rnode) : bool := match r with Ok n => Bool.eqb (r_valid n) b | _ => false end.
(** str(result.absolute_uri). *)
Definition location_uri (c : cat) (n : rnode) : pystr := match absolute_uri (c_objs c) n with Ok (Some u) => uri_str u | _ => [] end.
(** result.output(...). *)
Definition output_of (form : (rnode -> pystr) -> rnode -> json) (sc : sid * cat) (x : json) : res json :=
  let* r := evaluated sc x in Ok (form (location_uri (snd sc)) r).
Definition basic (uri : rnode -> pystr) : rnode -> json := out_basic uri None.
Definition agree (r : res json) (expected : json) : bool := match r with Ok v => json_eqb v expected | _ => false end.
Definition both {A} (r : res A) (f : A -> bool) : bool := match r with Ok a => f a | _ => false end.

(** The node at a pointer. *)
Definition schema_at (sc : sid * cat) (p : string) : res sid :=
  let* q := parse_pointer (lit p) in
  let* n := sn_walk (suite_world (snd sc)) (SNSchema (fst sc)) q in
  match n with SNSchema t => Ok t | SNJson _ => Exn EOther end.
