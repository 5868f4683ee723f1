(** What an examination of chosen indexes may do to a database. *)
From Coq Require Import String List NArith ZArith QArith Bool.
From Verif Require Import Base IndexText IndexTextSpec SqlServer Json HandOver Program ProgramSpec HasuraProgramSpec.
Import ListNotations.

Section Chosen.
  Context (create drop : gostring -> index_target -> gostring) (explain query out : gostring) (chosen : list index_target).
  (** the plan is asked for, the tables are asked about, the query is timed, then just the
      chosen indexes, each created, timed and dropped; then the report *)
  Definition examines_just (tr : list act) : Prop :=
    exists connection rq rq' exam b,
      tr = AOpen connection :: ASelect (explain ++ query, []) :: ASelect rq :: ASelect rq' :: exam ++ [AWrite out b; AClose] /\
      examined_all (fun n it => AExec (create n it)) (fun n it => AExec (drop n it)) (AExec query) chosen exam.
  (** nothing else is executed, however the run ends *)
  Definition touches_only (tr : list act) : Prop :=
    forall s, In (AExec s) tr -> s = query \/ exists n it, In it chosen /\ (s = create n it \/ s = drop n it).
  (** and nothing else is written *)
  Definition writes_only (tr : list act) : Prop := forall p b, In (AWrite p b) tr -> p = out.
End Chosen.

(** The same for requests to Hasura, as it understands them. *)
Section HasuraChosen.
  Context (query : gostring) (variables : jv) (out : gostring) (chosen : list index_target).
  Definition hasura_permits (h : heard) : Prop :=
    match h with
    | HExplain q v | HQuery q v => q = query /\ v = variables
    | HSql _ true => True
    | HSql _ false => exists n it, In it chosen /\ (h = create_index n it \/ h = drop_index n it)
    | HWrite p _ => p = out
    | HOther => False
    end.
  Definition hasura_touches_only (tr : list act) : Prop := forall h, In h (map hear tr) -> hasura_permits h.
  Definition hasura_examines_just (tr : list act) : Prop :=
    exists q q' exam b,
      map hear tr = HExplain query variables :: HSql q true :: HSql q' true :: exam ++ [HWrite out b] /\
      examined_all create_index drop_index (HQuery query variables) chosen exam.
End HasuraChosen.
