(** Model of database/dservice/examiner.go: the examiner runs against an
    arbitrary database.  Every call made through the IndexExaminer interface is
    recorded, with its answer, in a trace. *)
From Coq Require Import String List NArith ZArith Bool Lia Arith.
From Verif Require Import Base Dec IndexText.
Import ListNotations.

(** A call through the interface examiner.go:14-18 together with its answer.
    [None]/[inl] = success, error texts otherwise; Execute yields milliseconds. *)
Inductive event :=
| EvExecute (answer : Z + gostring)
| EvCreate (name : gostring) (it : index_target) (answer : option gostring)
| EvDrop (name : gostring) (it : index_target) (answer : option gostring).

(** The database behind the interface: any state space and any behaviour. *)
(** examiner.go:14-18 *)
Record database (W : Type) := {
  db_execute : W -> W * (Z + gostring);
  db_create : W -> gostring -> index_target -> W * option gostring;
  db_drop : W -> gostring -> index_target -> W * option gostring }.
Arguments db_execute {W}. Arguments db_create {W}. Arguments db_drop {W}.

(** dmodel/examination_index_result.go and examination_result.go *)
(** dmodel/examination_index_result.go:7-10 *)
Record index_result := { ir_target : index_target; ir_millis : Z }.
(** dmodel/examination_result.go:5-8 *)
Record examination_result := { er_results : list index_result; er_original : Z }.

(** examiner.go:72 *)
Definition max_idx_name_len : nat := 30.

(** examiner.go:75-81. [rnd] is the value drawn by rand.Intn(999999999).
    [idxName[:30]] cuts bytes; all characters of the name are ASCII (proved in
    ExaminerProofs.v), so it cuts characters. *)
Definition idx_name (id : gostring) (rnd : N) (it : index_target) : gostring :=
  let n := id ++ lit "_" ++ join (lit "_") (map safe_name (it_cols it)) in
  if Nat.ltb max_idx_name_len (byte_len n)
  then firstn max_idx_name_len n ++ lit "_" ++ dec_of_N rnd
  else n.

Section Examine.
  Context {W : Type} (db : database W).

  (** examiner.go:74-103 examine; the deferred function (89-95) runs after both
      returns that follow it (99 and 102) and sees the named result [err]. *)
  Definition examine (w : W) (id : gostring) (rnd : N) (it : index_target)
    : list event * W * outcome index_result :=
    let name := idx_name id rnd it in
    let '(w1, cerr) := db_create db w name it in
    match cerr with
    | Some e => ([EvCreate name it (Some e)], w1, Err e)
    | None =>
        let '(w2, ex) := db_execute db w1 in
        let '(w3, derr) := db_drop db w2 name it in
        let tr := [EvCreate name it None; EvExecute ex; EvDrop name it derr] in
        match ex with
        | inr e => (tr, w3, Err e)
        | inl ms =>
            match derr with
            | Some e => (tr, w3, Err (lit "failed to drop index: " ++ e))
            | None => (tr, w3, Ok {| ir_target := it; ir_millis := ms |})
            end
        end
    end.

  (** examiner.go:39-51, the loop of Run.  [rnds] supplies one random draw per
      target (unused if the name is short).  The map [results] and the final
      logging (54-67) work on separate slices and are not modelled. *)
  Fixpoint run_loop (w : W) (id : gostring) (rnds : nat -> N) (k : nat) (its : list index_target)
    : list event * W * outcome (list index_result) :=
    match its with
    | [] => ([], w, Ok [])
    | it :: its' =>
        let '(tr, w1, r) := examine w id (rnds k) it in
        match r with
        | Ok res =>
            let '(tr', w2, r') := run_loop w1 id rnds (S k) its' in
            (tr ++ tr', w2, do rs <- r'; Ok (res :: rs))
        | Err e => (tr, w1, Err e)
        | Panic => (tr, w1, Panic)
        end
    end.

  (** examiner.go:30-70 Run; [unix] is time.Now().Unix() (assumed >= 0). *)
  Definition run (w : W) (unix : N) (rnds : nat -> N) (its : list index_target)
    : list event * W * outcome examination_result :=
    let '(w1, ex) := db_execute db w in
    match ex with
    | inr e => ([EvExecute ex], w1, Err e)
    | inl orig =>
        let '(tr, w2, r) := run_loop w1 (dec_of_N unix) rnds 0 its in
        (EvExecute ex :: tr, w2,
         do rs <- r; Ok {| er_results := rs; er_original := orig |})
    end.
End Examine.
