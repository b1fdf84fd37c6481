(** The result of evaluation with the instance moved to another place of a
    document: [p] is put in front of every instance path, nothing else changes. *)
From Verif Require Export Schema.
Open Scope nat_scope.

Definition rmap {A B} (f : A -> B) (r : res A) : res B :=
  match r with Ok x => Ok (f x) | Exn e => Exn e | Fuel => Fuel end.

Section Shift.
Variable p : path.
Fixpoint shift (n : rnode) : rnode :=
  mkR (r_key n) (r_path n) (r_relpath n) (r_schema n) (p ++ r_inst n) (r_valid n) (r_assert n) (r_discard n) (r_annot n) (r_error n) (r_ref n)
      (map (fun kc => ((fst (fst kc), p ++ snd (fst kc)), shift (snd kc))) (r_children n)).
Definition shift_in (i : inst) : inst := mkInst (p ++ i_path i) (i_val i).
End Shift.
