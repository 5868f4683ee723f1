(** What a log tells when the process is killed. *)
From Coq Require Import String List NArith Bool Lia Arith.
From Verif Require Import Base IndexText Examiner Program Diary DiarySpec.
Import ListNotations.
Local Open Scope nat_scope.

(** The creation was sent, the removal was not *)
Definition left_by (ss : list step) (n : gostring) (it : index_target) : Prop :=
  exists s1 s2, ss = s1 ++ Make n it :: s2 /\ ~ In (Unmake n it) s2.
Definition names_index (n t : gostring) : Prop :=
  t = of_string "Creating index(" ++ n ++ of_string ")..." \/ t = of_string "Dropping index(" ++ n ++ of_string ")...".
(** The last of the lines that name an index names [n] *)
Definition last_named (n : gostring) (lines : list gostring) : Prop :=
  exists l1 t l2, lines = l1 ++ t :: l2 /\ names_index n t /\ forall t' m, In t' l2 -> ~ names_index m t'.
(** The process may end behind any entry: at most one index is left, and the log names it *)
Definition killed_told (step_act : step -> act) (d : list (entry act)) : Prop :=
  forall p q, d = p ++ q ->
  exists before ss after,
    acts p = before ++ map step_act ss ++ after /\
    (forall a s, In a (before ++ after) -> a <> step_act s) /\
    (exists rest, in_turn (ss ++ rest)) /\
    forall n it, left_by ss n it -> last_named n (at_level Info p) /\ forall n' it', left_by ss n' it' -> n' = n /\ it' = it.
