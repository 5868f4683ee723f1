(** A simple command with one variable assignment before it (POSIX 2.9.1, 2.10.2 rule 7). *)
From Coq Require Import String List NArith Bool.
From Verif Require Import Base CommandTextSpec.
Import ListNotations.

Definition name_char (c : N) : Prop :=
  (65 <= c <= 90)%N \/ (97 <= c <= 122)%N \/ c = 95%N.
(** A shell runs [words] with the variable [name] set to [value]. *)
Definition runs_with (env : gostring -> gostring) (s name value : gostring) (words : list gostring) : Prop :=
  exists rest, s = name ++ 61%N :: rest /\ name <> [] /\ Forall name_char name /\
    sh_read env (InWord []) rest = Some (value :: words).
