(** Model of the SQL sent by the three index examiners and of the suggest commands. *)
From Coq Require Import String List NArith ZArith Bool Lia.
From Verif Require Import Base Dec IndexText Examiner.
Import ListNotations.

(** mservice/index_examiner.go:36 *)
Definition bq : gostring := [96%N].
(** pservice/index_examiner.go:35 *)
Definition dq : gostring := [34%N].
(** mservice/index_examiner.go:38, pservice/index_examiner.go:37 *)
Definition quoted (q s : gostring) : gostring := q ++ s ++ q.

(** mservice/index_examiner.go:34-42 *)
Definition mysql_create_sql (name : gostring) (it : index_target) : gostring :=
  lit "ALTER TABLE `" ++ it_table it ++ lit "` ADD INDEX `" ++ name ++ lit "` ("
  ++ join (lit ",") (map (fun c => bq ++ safe_name c ++ bq) (it_cols it)) ++ lit ")".
(** mservice/index_examiner.go:44-48 *)
Definition mysql_drop_sql (name : gostring) (it : index_target) : gostring :=
  lit "ALTER TABLE `" ++ it_table it ++ lit "` DROP INDEX `" ++ name ++ lit "`".

(** pservice/index_examiner.go:34-41 and hservice/index_examiner.go:36-43 *)
Definition pg_create_sql (name : gostring) (it : index_target) : gostring :=
  lit "CREATE INDEX " ++ dq ++ name ++ dq ++ lit " ON " ++ dq ++ it_table it ++ dq ++ lit " ("
  ++ join (lit ",") (map (fun c => dq ++ safe_name c ++ dq) (it_cols it)) ++ lit ")".
(** pservice/index_examiner.go:43-47 and hservice/index_examiner.go:45-49 *)
Definition pg_drop_sql (name : gostring) (it : index_target) : gostring :=
  lit "DROP INDEX " ++ dq ++ name ++ dq.

(** A server that runs SQL text (Exec / RunRawSQL) and the examined query. *)
(** mservice/index_examiner.go:23-48: what it calls *)
Record sql_server (W : Type) := {
  srv_exec : W -> gostring -> W * option gostring;
  srv_query : W -> W * (Z + gostring) }.
Arguments srv_exec {W}. Arguments srv_query {W}.

(** mservice/index_examiner.go:23-48 *)
Definition mysql_examiner {W} (s : sql_server W) : database W :=
  {| db_execute := srv_query s;
     db_create := fun w n it => srv_exec s w (mysql_create_sql n it);
     db_drop := fun w n it => srv_exec s w (mysql_drop_sql n it) |}.
(** pservice/index_examiner.go:23-47, hservice/index_examiner.go:25-49 *)
Definition pg_examiner {W} (s : sql_server W) : database W :=
  {| db_execute := srv_query s;
     db_create := fun w n it => srv_exec s w (pg_create_sql n it);
     db_drop := fun w n it => srv_exec s w (pg_drop_sql n it) |}.

(** Observable steps of a suggest command. *)
(** mysql.go:61-111 *)
Inductive cmd_event :=
| CeExplain                      (* EXPLAIN sent (and its text parsed) *)
| CeSuggest                      (* schema and index catalogue queries *)
| CeExamine (e : event)          (* a step of the examination *)
| CeHtml.                        (* report written *)

(** Everything the commands depend on; answers are arbitrary.
    [env_explain] also stands for parsing the answer (and, for Hasura, for the
    check that exactly one query is run); [env_suggest] for IndexSuggester.Suggest. *)
(** mysql.go:61-111 *)
Record cmd_env (W : Type) := {
  env_db : database W;
  env_explain : W -> W * option gostring;
  env_suggest : W -> W * (list index_target + gostring);
  env_html : W -> list index_target -> option examination_result -> option gostring }.
Arguments env_db {W}. Arguments env_explain {W}. Arguments env_suggest {W}. Arguments env_html {W}.

Section Cmd.
  Context {W : Type} (env : cmd_env W) (unix : N) (rnds : nat -> N).

  (** mysql.go:97-111, postgres.go:97-111, hasura/postgres.go:143-157 examine *)
  Definition cmd_examine (w : W) (var_targets possible : list index_target)
    : list event * W * outcome examination_result :=
    let targets := match var_targets with
                   | [] => filter is_safe possible
                   | _ => var_targets
                   end in
    run (env_db env) w unix rnds targets.

  (** mysql.go:78-94 = postgres.go:78-94 = hasura/postgres.go:115-131 *)
  Definition finish (runs : bool) (output : gostring) (w : W) (var_targets its : list index_target)
    : list cmd_event * W * outcome unit :=
    let report tr w er :=
      match output with
      | [] => (tr, w, Ok tt)
      | _ => match env_html env w its er with
             | Some e => (tr ++ [CeHtml], w, Err e)
             | None => (tr ++ [CeHtml], w, Ok tt)
             end
      end in
    if runs then
      let '(tr, w1, r) := cmd_examine w var_targets its in
      match r with
      | Ok er => report (map CeExamine tr) w1 (Some er)
      | Err e => (map CeExamine tr, w1, Err e)
      | Panic => (map CeExamine tr, w1, Panic)
      end
    else report [] w None.

  (** mysql.go:61-95 and postgres.go:61-95 suggest *)
  Definition sql_suggest (runs : bool) (texts : list gostring) (output : gostring) (w : W)
    : list cmd_event * W * outcome unit :=
    match new_index_targets_from_texts texts with
    | Err e => ([], w, Err e)
    | Panic => ([], w, Panic)
    | Ok var_targets =>
        let '(w1, ex) := env_explain env w in
        match ex with
        | Some e => ([CeExplain], w1, Err e)
        | None =>
            let '(w2, sg) := env_suggest env w1 in
            match sg with
            | inr e => ([CeExplain; CeSuggest], w2, Err e)
            | inl its =>
                let '(tr, w3, r) := finish runs output w2 var_targets its in
                (CeExplain :: CeSuggest :: tr, w3, r)
            end
        end
    end.

  (** hasura/postgres.go:83-132 suggest: the -i texts are checked last *)
  Definition hasura_suggest (runs : bool) (texts : list gostring) (output : gostring) (w : W)
    : list cmd_event * W * outcome unit :=
    let '(w1, ex) := env_explain env w in
    match ex with
    | Some e => ([CeExplain], w1, Err e)
    | None =>
        let '(w2, sg) := env_suggest env w1 in
        match sg with
        | inr e => ([CeExplain; CeSuggest], w2, Err e)
        | inl its =>
            match new_index_targets_from_texts texts with
            | Err e => ([CeExplain; CeSuggest], w2, Err e)
            | Panic => ([CeExplain; CeSuggest], w2, Panic)
            | Ok var_targets =>
                let '(tr, w3, r) := finish runs output w2 var_targets its in
                (CeExplain :: CeSuggest :: tr, w3, r)
            end
        end
    end.
End Cmd.
