(** Which names a keyword without a class of its own may have. *)
From Coq Require Import List Bool NArith.
From Verif Require Export Base.
Import ListNotations.

(** Names from which Python can make the name of a class: not empty, no null
    character, no surrogates. *)
Definition nameable (key : pystr) : bool :=
  negb (str_eqb key []) && forallb (fun c => (1 <=? c) && ((c <=? 55295) || (57344 <=? c)))%N key.
