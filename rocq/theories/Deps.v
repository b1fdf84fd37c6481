(** JSONSchema._resolve_dependencies, jsonschema.py:168-185. *)
From Verif Require Export Keywords.
Open Scope nat_scope.

(** The function is modelled for any set [C] of keyword classes with a class
    equality and a [depends_on] attribute, so that extension vocabularies are
    covered as well. *)
Section Deps.
Variable C : Type.
Variable eqb : C -> C -> bool.
Variable deps_of : C -> list pystr.

(** A dict keyed by class: assignment (keeping the position of an existing
    key), as performed by the dict comprehension at lines 170-174. *)
Fixpoint cset (c : C) (v : list C) (t : list (C * list C)) : list (C * list C) :=
  match t with
  | [] => [(c, v)]
  | (d, w) :: r => if eqb c d then (d, v) :: r else (d, w) :: cset c v r
  end.

(** Lines 171-172: the classes present for the names in [depends_on]. *)
Fixpoint present_deps (kwclasses : list (pystr * C)) (names : list pystr) : list C :=
  match names with
  | [] => []
  | n :: r => match dget n kwclasses with
              | Some d => d :: present_deps kwclasses r
              | None => present_deps kwclasses r
              end
  end.

(** Lines 170-174. *)
Definition dep_table (kwclasses : list (pystr * C)) : list (C * list C) :=
  fold_left (fun t kc => cset (snd kc) (present_deps kwclasses (deps_of (snd kc))) t) kwclasses [].

(** Line 181, [deps.remove(kwclass)]: removes the first occurrence; line 182
    ignores the ValueError raised when there is none. *)
Fixpoint lremove (c : C) (l : list C) : list C :=
  match l with
  | [] => []
  | d :: r => if eqb d c then r else d :: lremove c r
  end.

(** Lines 176-177: the first class without outstanding dependencies. *)
Fixpoint find_free (t : list (C * list C)) : option C :=
  match t with
  | [] => None
  | (c, []) :: _ => Some c
  | _ :: r => find_free r
  end.

(** Line 178. *)
Fixpoint cdel (c : C) (t : list (C * list C)) : list (C * list C) :=
  match t with
  | [] => []
  | (d, v) :: r => if eqb c d then r else (d, v) :: cdel c r
  end.

(** Lines 175-185: the classes yielded by the while loop.  When no class is
    free the loop goes round again with nothing changed. *)
Fixpoint resolve_loop (fuel : nat) (t : list (C * list C)) : res (list C) :=
  match t with
  | [] => Ok []
  | _ =>
      match fuel with
      | O => Fuel
      | S f =>
          match find_free t with
          | None => resolve_loop f t
          | Some c =>
              let* r := resolve_loop f (map (fun e => (fst e, lremove c (snd e))) (cdel c t)) in
              Ok (c :: r)
          end
      end
  end.

Definition resolve_dependencies (fuel : nat) (kwclasses : list (pystr * C)) : res (list C) :=
  resolve_loop fuel (dep_table kwclasses).
End Deps.

Arguments cset {C}. Arguments present_deps {C}. Arguments dep_table {C}. Arguments lremove {C}.
Arguments find_free {C}. Arguments cdel {C}. Arguments resolve_loop {C}.
Arguments resolve_dependencies {C}.
