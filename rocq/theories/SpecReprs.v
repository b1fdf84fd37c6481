(** Expressions that call the constructors of pointers and patches. *)
From Verif Require Export SpecPython Patch RelPointer.

Inductive py_pointer (F : floats) : pystr -> pointer -> Prop :=
| pp_call t s p : python F t (JStr s) -> parse_pointer s = Ok p -> py_pointer F (lit "JSONPointer(" ++ t ++ lit ")") p.
Inductive py_relative (F : floats) : pystr -> relpointer -> Prop :=
| pr_call t s r : python F t (JStr s) -> parse_rel s = Ok r -> py_relative F (lit "RelativeJSONPointer(" ++ t ++ lit ")") r.

(** The members of the enumeration, jsonpatch.py:25-30. *)
Inductive py_member : pystr -> opname -> Prop :=
| pm_add : py_member (lit "PatchOp.ADD") ADD | pm_remove : py_member (lit "PatchOp.REMOVE") REMOVE
| pm_replace : py_member (lit "PatchOp.REPLACE") REPLACE | pm_move : py_member (lit "PatchOp.MOVE") MOVE
| pm_copy : py_member (lit "PatchOp.COPY") COPY | pm_test : py_member (lit "PatchOp.TEST") TEST.
Inductive py_perhaps (F : floats) : pystr -> option pointer -> Prop :=
| ph_none : py_perhaps F (lit "None") None
| ph_some t p : py_pointer F t p -> py_perhaps F t (Some p).
(** Called with pointers rather than texts, the constructor keeps its arguments
    (jsonpatch.py:59-66). *)
Inductive py_operation (F : floats) : pystr -> patchop -> Prop :=
| po_call o op p path f from t v : py_member o op -> py_pointer F p path -> py_perhaps F f from -> python F t v ->
    py_operation F (lit "JSONPatchOperation(op=" ++ o ++ lit ", path=" ++ p ++ lit ", from_=" ++ f ++ lit ", value=" ++ t ++ lit ")") (mkOp op path v from).
Inductive py_operations (F : floats) : pystr -> list patchop -> Prop :=
| ps_last t o : py_operation F t o -> py_operations F t [o]
| ps_more t o r l : py_operation F t o -> py_operations F r l -> py_operations F (t ++ lit ", " ++ r) (o :: l).
Inductive py_patch (F : floats) : pystr -> list patchop -> Prop :=
| pc_none : py_patch F (lit "JSONPatch(*[])") []
| pc_some t l : py_operations F t l -> py_patch F (lit "JSONPatch(*[" ++ t ++ lit "])") l.
