(** What the index text syntax is meant to be, independent of any regexp. *)
From Coq Require Import String List NArith Bool.
From Verif Require Import Base.
Import ListNotations.

(** A word character, spelled out. *)
Definition word_char (c : N) : Prop :=
  (48 <= c /\ c <= 57)%N \/ (65 <= c /\ c <= 90)%N \/ (97 <= c /\ c <= 122)%N \/ c = 95%N.

(** An identifier: non-empty, word characters only. *)
Definition identifier (s : gostring) : Prop := s <> [] /\ Forall word_char s.

(** [index_text text table cols]: the text is  table:col+...+col. *)
Inductive col_list : gostring -> list gostring -> Prop :=
| col_one : forall c, identifier c -> col_list c [c]
| col_more : forall c rest cs, identifier c -> col_list rest cs ->
                               col_list (c ++ [43%N] ++ rest) (c :: cs).
Definition index_text (text : gostring) (table : gostring) (cols : list gostring) : Prop :=
  identifier table /\ exists cpart, text = table ++ [58%N] ++ cpart /\ col_list cpart cols.

(** No line break in the text. *)
Definition single_line (text : gostring) : Prop := ~ In 10%N text.

(** [piece] occurs literally in [text]. *)
Definition occurs_in (piece text : gostring) : Prop := exists a b, text = a ++ piece ++ b.

(** A line that has a colon with something before and after it. *)
Definition has_inner_colon (line : gostring) : Prop :=
  exists a b, a <> [] /\ b <> [] /\ line = a ++ [58%N] ++ b.

(** [lines_of text ls]: cutting the text at its line breaks gives [ls]. *)
Inductive lines_of : gostring -> list gostring -> Prop :=
| lines_last : forall l, single_line l -> lines_of l [l]
| lines_more : forall l rest ls, single_line l -> lines_of rest ls ->
                                 lines_of (l ++ [10%N] ++ rest) (l :: ls).
