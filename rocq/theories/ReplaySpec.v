(** What a server and a file system see of the acts of a command. *)
From Coq Require Import List NArith ZArith String.
From Verif Require Import Base SqlServer Json HandOver Program HasuraProgram.
Import ListNotations.

(** How an act changes the state, and when it succeeds *)
Section Replay.
  Context {W : Type} (see : W -> act -> W) (fine : W -> act -> Prop).
  Fixpoint replay (w : W) (tr : list act) : W :=
    match tr with [] => w | a :: tr' => replay (see w a) tr' end.
  Fixpoint all_fine (w : W) (tr : list act) : Prop :=
    match tr with [] => True | a :: tr' => fine w a /\ all_fine (see w a) tr' end.
End Replay.

(** A database server *)
Section Sql.
  Context {W : Type} (sv : world W).
  Definition sql_see (w : W) (a : act) : W :=
    match a with
    | AOpen c => fst (on_open sv w c)
    | ASelect rq => fst (on_select sv w rq)
    | AExec s => fst (on_exec sv w s)
    | AWrite p b => fst (on_write sv w p b)
    | AClose => on_close sv w
    | APost _ _ => w
    end.
  Definition sql_fine (w : W) (a : act) : Prop :=
    match a with
    | AOpen c => snd (on_open sv w c) = None
    | ASelect rq => exists rows, snd (on_select sv w rq) = Ok rows
    | AExec s => exists ms, snd (on_exec sv w s) = inl ms
    | AWrite p b => snd (on_write sv w p b) = None
    | AClose => True
    | APost _ _ => False
    end.
End Sql.

(** A Hasura server: status 200, and JSON where SQL was to be run *)
Section Http.
  Context {W : Type} (hv : hworld W) (unmarshal : gostring -> option jv).
  Definition http_see (w : W) (a : act) : W :=
    match a with
    | APost p j => fst (fst (h_post hv w p j))
    | AWrite p b => fst (h_write hv w p b)
    | _ => w
    end.
  Definition http_fine (w : W) (a : act) : Prop :=
    match a with
    | APost p j => exists text, snd (h_post hv w p j) = Answer 200 text /\ (p = of_string "/v1/graphql" \/ unmarshal text <> None)
    | AWrite p b => snd (h_write hv w p b) = None
    | _ => False
    end.
End Http.
