(** What the lines of a PostgreSQL EXPLAIN text mean, independently of the
    regular expressions and loops that read them. *)
From Coq Require Import String List NArith ZArith QArith Bool Lia Arith.
From Verif Require Import Base Dec ExplainTree ExplainSpec.
Import ListNotations.
Local Open Scope nat_scope.

(** "Key: value" somewhere in the line: a word character, at most one space and
    then a colon followed by a space. *)
Definition info_line (l : gostring) : Prop :=
  exists a c b, is_word c = true /\
    (l = a ++ c :: lit ": " ++ b \/ l = a ++ c :: lit " : " ++ b).
(** "-> " somewhere in the line *)
Definition arrow_line (l : gostring) : Prop := exists a b, l = a ++ lit "-> " ++ b.
(** The first line of the summary: an unindented title of at least two characters
    (word characters and spaces) with a colon. *)
Definition summary_line (l : gostring) : Prop :=
  exists c t b, l = c :: t ++ lit ":" ++ b /\ is_word c = true /\ t <> [] /\
    Forall (fun x => is_word x = true \/ x = 32%N) t.

(** Neither: the name of a plan ("SubPlan 1", "CTE x"). *)
Definition name_line (l : gostring) : Prop := ~ info_line l /\ ~ arrow_line l.
Definition child_line (l : gostring) : Prop := ~ info_line l /\ arrow_line l.

(** Line [i] begins a new node: the first line, the name of a plan, or an arrow
    that does not follow the name of a plan (the first line is not one). *)
Definition begins (lines : list gostring) (i : nat) : Prop :=
  i < length lines /\
  (i = 0 \/ name_line (nth i lines []) \/
   (child_line (nth i lines []) /\ (i = 1 \/ ~ name_line (nth (i - 1) lines [])))).

(** [groups] cuts [lines] exactly where a node begins. *)
Definition cut_into (lines : list gostring) (groups : list (list gostring)) : Prop :=
  concat groups = lines /\ Forall (fun g => g <> []) groups /\
  forall i, begins lines i <-> exists a b, groups = a ++ b /\ b <> [] /\ length (concat a) = i.

(** The lines before the summary, and the summary. *)
Definition summary_at (lines body rest : list gostring) : Prop :=
  lines = body ++ rest /\ Forall (fun l => ~ summary_line l) body /\
  match rest with [] => True | l :: _ => summary_line l end.

(** The shape of a group: one line that begins it, after a plan's name possibly
    one arrow, then information. *)
Definition group_shape (g : list gostring) : Prop :=
  exists h mid t, g = h :: mid ++ t /\ Forall info_line t /\
    (mid = [] \/ exists m, mid = [m] /\ child_line m /\ name_line h).
