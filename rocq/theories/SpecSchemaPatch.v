(** How the JSON Patch methods read the last key of a path to an array item:
    any integer text of Python that is the number of the item. *)
From Verif Require Export Base Json SpecPyInt SpecPatch.
Open Scope nat_scope.
Definition text_reading : token_reading := fun k i => int_text k (Z.of_nat i).
