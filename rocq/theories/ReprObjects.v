(** repr() of pointers and patches.  repr() of str and of plain values is
    CPython's, see [Repr.v]. *)
From Verif Require Export Repr Patch RelPointer.
From Verif Require Import Text.

(** JSONPointer.__repr__, jsonpointer.py:183-185. *)
Definition repr_pointer (p : pointer) : pystr := lit "JSONPointer(" ++ repr_str (pointer_str p) ++ lit ")".
(** RelativeJSONPointer.__repr__, jsonpointer.py:354-356. *)
Definition repr_rel (r : relpointer) : pystr := lit "RelativeJSONPointer(" ++ repr_str (rel_str r) ++ lit ")".

(** PatchOp.__repr__, jsonpatch.py:32-33, with the names of lines 25-30. *)
Definition repr_opname (o : opname) : pystr :=
  lit "PatchOp." ++ match o with
                    | ADD => lit "ADD" | REMOVE => lit "REMOVE" | REPLACE => lit "REPLACE"
                    | MOVE => lit "MOVE" | COPY => lit "COPY" | TEST => lit "TEST"
                    end.
(** JSONPatchOperation.__repr__, jsonpatch.py:106-108. *)
Definition repr_operation (F : Text.floats) (o : patchop) : pystr :=
  lit "JSONPatchOperation(op=" ++ repr_opname (po_op o) ++ lit ", path=" ++ repr_pointer (po_path o) ++
  lit ", from_=" ++ match po_from o with Some f => repr_pointer f | None => lit "None" end ++
  lit ", value=" ++ repr_value F (po_value o) ++ lit ")".
(** JSONPatch.__repr__, jsonpatch.py:181-183. *)
Definition repr_patch (F : Text.floats) (ops : list patchop) : pystr :=
  lit "JSONPatch(*" ++ repr_list (map (repr_operation F) ops) ++ lit ")".

(** str.__repr__ for any table of printable characters (CPython's is the
    Unicode database); [repr_str] of [Repr.v] takes a simple one. *)
Definition repr_char_by (pr : N -> bool) (quote c : N) : pystr :=
  (if (c =? quote) || (c =? 92) then [92; c]
   else if c =? 9 then [92; 116] else if c =? 10 then [92; 110] else if c =? 13 then [92; 114]
   else if pr c then [c]
   else if c <? 256 then [92; 120; hex_digit (c / 16); hex_digit (c mod 16)]
   else if c <? 65536 then 92 :: 117 :: hex4_text c
   else 92 :: 85 :: hex4_text (c / 65536) ++ hex4_text (c mod 65536))%N.
Definition repr_str_by (pr : N -> bool) (s : pystr) : pystr :=
  let has q := existsb (N.eqb q) s in
  let quote := (if has 39 && negb (has 34) then 34 else 39)%N in
  quote :: flat_map (repr_char_by pr quote) s ++ [quote].
