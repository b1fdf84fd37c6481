(** Where a file name leads, stated without reference to pathlib. *)
From Verif Require Export Catalog.
Open Scope nat_scope.

(** One step of POSIX path resolution (IEEE 1003.1, 4.13) in a file system
    without symbolic links.  A place is the list of directory entries from the
    root, the innermost first. *)
Definition enter (place : list pystr) (name : pystr) : list pystr :=
  if str_eqb name [] || str_eqb name (lit ".") then place
  else if str_eqb name (lit "..") then tl place
  else name :: place.

(** Where a file name leads from the working directory [cwd]. *)
Definition leads_to (cwd : list pystr) (file : pystr) : list pystr :=
  fold_left enter (split_char 47 file) (match file with c :: _ => if N.eqb c 47 then [] else cwd | [] => cwd end).

(** The place lies strictly inside the directory. *)
Definition inside (dir place : list pystr) : Prop := exists names, names <> [] /\ place = names ++ dir.

(** A relative path that names something and never goes up. *)
Definition downward (rel : pystr) : Prop :=
  match rel with c :: _ => c <> 47%N | [] => True end /\
  (forall x, In x (split_char 47 rel) -> x <> lit "..") /\
  (exists x, In x (split_char 47 rel) /\ x <> [] /\ x <> lit ".").

(** [x] is the last part of the file name that is neither empty nor a single
    dot, and [l] is what is before it. *)
Definition last_name (file : pystr) (l : list pystr) (x : pystr) : Prop :=
  x <> [] /\ x <> lit "." /\ exists rest, split_char 47 file = l ++ x :: rest /\ (forall y, In y rest -> y = [] \/ y = lit ".").
(** There is no such part. *)
Definition nameless (file : pystr) : Prop := forall y, In y (split_char 47 file) -> y = [] \/ y = lit ".".
Definition absolute (file : pystr) : Prop := exists r, file = 47%N :: r.
