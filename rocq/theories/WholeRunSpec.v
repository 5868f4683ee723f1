(** What may leave the program, seen from the words on the command line. *)
From Coq Require Import String List NArith ZArith QArith Bool.
From Verif Require Import Base HandOver Program HasuraProgramSpec DigProgram WholeRun.
Import ListNotations.

(** a deed that may change what is in a database *)
Definition changes (d : deed) : Prop :=
  match d with
  | inl (AExec _) => True
  | inl (APost path body) => match hear (APost path body) with HExplain _ _ | HSql _ true => False | _ => True end
  | _ => False
  end.
(** the file that a deed writes *)
Definition written (d : deed) : list gostring :=
  match d with
  | inl (AWrite p _) => [p]
  | inr (existT _ (GCreate p _) _) => [p]
  | _ => []
  end.
(** an option is spelt out on the line *)
Definition named_on (argv : list gostring) (name : gostring) : Prop :=
  exists word, In word argv /\ (word = lit "--" ++ name \/ exists v, word = lit "--" ++ name ++ lit "=" ++ v).
(** a text stands on the line: a word is or ends with it *)
Definition on_line (argv : list gostring) (text : gostring) : Prop := exists word before, In word argv /\ word = before ++ text.
