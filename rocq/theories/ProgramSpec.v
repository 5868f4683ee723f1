(** What a user may rely on when letting the suggest commands talk to a database: which
    statements reach it and in which order. *)
From Coq Require Import String List NArith ZArith QArith Bool Lia Arith.
From Verif Require Import Base IndexText IndexTextSpec Examiner SqlServer MetaSql HandOver Program.
Import ListNotations.

(** A question about tables of [table]: one SELECT, its values given as arguments. *)
Definition asks (table : gostring -> Prop) (schema : gostring) (rq : request) : Prop :=
  exists tables q, tables <> [] /\ (forall t, In t tables -> table t) /\ snd rq = schema :: tables /\ parse_sql (fst rq) = Some q.

Section Trials.
  Context {A : Type} (create drop : gostring -> index_target -> A) (query : A).
  Definition trial (n : gostring) (it : index_target) : list A :=
    [create n it; query; drop n it].
  (** All targets tried, one after the other. *)
  Inductive all_tried : list index_target -> list A -> Prop :=
  | tried_none : all_tried [] []
  | tried_one : forall n it its acts, all_tried its acts -> all_tried (it :: its) (trial n it ++ acts).
  (** Broken off at a target: its index not created, or created and dropped. *)
  Inductive broken_off : list index_target -> list A -> Prop :=
  | broken_create : forall n it its, broken_off (it :: its) [create n it]
  | broken_trial : forall n it its, broken_off (it :: its) (trial n it)
  | broken_later : forall n it its acts, broken_off its acts -> broken_off (it :: its) (trial n it ++ acts).
  (** A whole examination, and one that failed: first the query by itself. *)
  Definition examined_all (its : list index_target) (acts : list A) : Prop :=
    exists rest, acts = query :: rest /\ all_tried its rest.
  Definition examined_some (its : list index_target) (acts : list A) : Prop :=
    acts = [query] \/ exists rest, acts = query :: rest /\ broken_off its rest.
End Trials.

Definition failed {A} (r : outcome A) : Prop := forall x, r <> Ok x.
(** The targets tried: the ones given, or else suggested ones that are safe to write. *)
Definition targets_of (table : gostring -> Prop) (vars targets : list index_target) : Prop :=
  targets = vars /\ vars <> [] \/
  vars = [] /\ Forall (fun it => table (it_table it) /\ it_cols it <> [] /\ identifier (it_table it) /\ Forall (Forall word_char) (it_cols it)) targets.

(** The end: with a place to write to, one report, and success exactly if it could be
    written; [wrote b e] says that writing [b] there may end with [e]. *)
Definition ended {A} (write : gostring -> build_option -> A) (output : gostring) (wrote : build_option -> option gostring -> Prop) (report : list A) (r : outcome unit) : Prop :=
  output = [] /\ report = [] /\ r = Ok tt \/
  output <> [] /\ exists b e, report = [write output b] /\ wrote b e /\ r = match e with None => Ok tt | Some m => Err m end.

(** The conversation of a suggest command; [explain] is what EXPLAIN begins with, [table]
    the tables of the statement. *)
Section Conversation.
  Context (create drop : gostring -> index_target -> gostring) (explain query schema output : gostring)
    (runs : bool) (vars : outcome (list index_target)) (table : gostring -> Prop) (wrote : build_option -> option gostring -> Prop).
  Inductive conversation : list act -> outcome unit -> Prop :=
  | co_options : forall r, failed vars -> failed r -> conversation [] r
  | co_explain : forall v r, vars = Ok v -> failed r -> conversation [ASelect (explain ++ query, [])] r
  | co_columns : forall v rq r, vars = Ok v -> asks table schema rq -> failed r ->
      conversation [ASelect (explain ++ query, []); ASelect rq] r
  | co_indexes : forall v rq rq' r, vars = Ok v -> asks table schema rq -> asks table schema rq' -> failed r ->
      conversation [ASelect (explain ++ query, []); ASelect rq; ASelect rq'] r
  | co_examine : forall v rq rq' targets exam r, vars = Ok v -> asks table schema rq -> asks table schema rq' -> runs = true ->
      targets_of table v targets -> examined_some (fun n it => AExec (create n it)) (fun n it => AExec (drop n it)) (AExec query) targets exam -> failed r ->
      conversation (ASelect (explain ++ query, []) :: ASelect rq :: ASelect rq' :: exam) r
  | co_report : forall v rq rq' exam report r, vars = Ok v -> asks table schema rq -> asks table schema rq' ->
      (if runs then exists targets, targets_of table v targets /\ examined_all (fun n it => AExec (create n it)) (fun n it => AExec (drop n it)) (AExec query) targets exam else exam = []) ->
      ended AWrite output wrote report r ->
      conversation (ASelect (explain ++ query, []) :: ASelect rq :: ASelect rq' :: exam ++ report) r.
End Conversation.
