(** The table of output formatters and Result.output: output.py:20-38 and the
    decorators at 40, 47, 73, 107, 132; jsonschema.py:537-547.

    Simplified: the values of keyword arguments are None or lists of strings. *)
From Verif Require Export Output.
Open Scope nat_scope.

Definition kwargs := list (pystr * option (list pystr)).
Definition formatter := rnode -> kwargs -> res json.
(** _formatters. *)
Definition formatters := list (pystr * formatter).
(** output_formatter(format)(f), output.py:23-34. *)
Definition output_formatter (format : pystr) (f : formatter) (t : formatters) : formatters := dset format f t.
(** create_output, output.py:37-38, and Result.output. *)
Definition create_output (t : formatters) (n : rnode) (format : pystr) (kw : kwargs) : res json :=
  match dget format t with Some f => f n kw | None => Exn EKey end.

(** A function without keyword arguments, and one with the argument annotations. *)
Definition no_kwargs (f : rnode -> res json) : formatter := fun n kw => match kw with [] => f n | _ => Exn EType end.
Definition annotations_kwarg (f : option (list pystr) -> rnode -> res json) : formatter :=
  fun n kw => match kw with
              | [] => f None n
              | [(k, a)] => if str_eqb k (lit "annotations") then f a n else Exn EType
              | _ => Exn EType
              end.

Section Standard.
Variable uri : rnode -> pystr.
Variable W : world.
(** The table after the module has been imported. *)
Definition standard_formatters : formatters :=
  output_formatter (lit "hierarchical") (no_kwargs (out_hierarchical uri W))
    (output_formatter (lit "verbose") (no_kwargs (fun n => Ok (out_verbose uri n)))
      (output_formatter (lit "detailed") (no_kwargs (fun n => Ok (out_detailed uri n)))
        (output_formatter (lit "basic") (annotations_kwarg (fun a n => Ok (out_basic uri a n)))
          (output_formatter (lit "flag") (no_kwargs (fun n => Ok (out_flag n))) [])))).
End Standard.
