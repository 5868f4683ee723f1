(** What a user expects from an examination run, stated on traces of calls and on
    the set of indexes of the database, without reference to how Run works. *)
From Coq Require Import String List NArith ZArith Bool Lia.
From Verif Require Import Base IndexText Examiner.
Import ListNotations.

(** The call succeeded. *)
Definition succeeded (e : event) : Prop :=
  match e with
  | EvExecute (inl _) => True
  | EvExecute (inr _) => False
  | EvCreate _ _ None => True
  | EvCreate _ _ (Some _) => False
  | EvDrop _ _ None => True
  | EvDrop _ _ (Some _) => False
  end.

(** The call failed with this error text. *)
Definition failed_with (e : event) (m : gostring) : Prop :=
  e = EvExecute (inr m) \/ (exists n it, e = EvCreate n it (Some m)) \/ (exists n it, e = EvDrop n it (Some m)).

(** [p] is what has happened at some instant of the execution [tr]. *)
Definition prefix_of_trace (p tr : list event) : Prop := exists s, tr = p ++ s.

(** A database seen as a set of indexes identified by keys [K] ((table, name) for
    MySQL, name for PostgreSQL). [ix w k]: index [k] exists in state [w]. *)
Record index_database {W K : Type} (db : database W) (key : gostring -> index_target -> K)
       (ix : W -> K -> Prop) : Prop := {
  ixd_execute : forall w w' a, db_execute db w = (w', a) -> forall k, ix w' k <-> ix w k;
  ixd_create_ok : forall w n it w', db_create db w n it = (w', None) ->
      ~ ix w (key n it) /\ forall k, ix w' k <-> ix w k \/ k = key n it;
  ixd_create_fail : forall w n it w' e, db_create db w n it = (w', Some e) -> forall k, ix w' k <-> ix w k;
  ixd_drop_ok : forall w n it w', db_drop db w n it = (w', None) ->
      forall k, ix w' k <-> ix w k /\ k <> key n it;
  ixd_drop_fail : forall w n it w' e, db_drop db w n it = (w', Some e) -> forall k, ix w' k <-> ix w k }.

(** The indexes existing after the calls [tr] when [S] existed before. *)
Fixpoint replay {K : Type} (key : gostring -> index_target -> K) (S : K -> Prop) (tr : list event) : K -> Prop :=
  match tr with
  | [] => S
  | EvCreate n it None :: tr' => replay key (fun k => S k \/ k = key n it) tr'
  | EvDrop n it None :: tr' => replay key (fun k => S k /\ k <> key n it) tr'
  | _ :: tr' => replay key S tr'
  end.

(** Names of the calls. *)
Definition created (tr : list event) : list index_target :=
  flat_map (fun e => match e with EvCreate _ it None => [it] | _ => [] end) tr.
Definition asked (tr : list event) : list index_target :=
  flat_map (fun e => match e with EvCreate _ it _ => [it] | _ => [] end) tr.
(** The measured times in order. *)
Definition times (tr : list event) : list Z :=
  flat_map (fun e => match e with EvExecute (inl z) => [z] | _ => [] end) tr.
