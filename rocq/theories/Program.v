(** The MySQL and PostgreSQL suggest commands from start to end, against a server with a
    state: everything sent to it, in order, and the report written. *)
From Coq Require Import String List NArith ZArith QArith Bool Lia Arith.
From Verif Require Import Base IndexText IndexBuild TableFields Existing ExplainTree PlanView SqlServer MetaSql Examiner SuggestCmd Json HandOver CommandText.
From Verif Require MysqlExplain PgExplain MysqlAst MysqlCollect PgAst PgCollect ConnText.
Import ListNotations.

(** What leaves the program. *)
(** cmd/db/suggest/mysql.go:46-95: the calls of infra/mysql/db.go:17-89 and of createHTML *)
Inductive act :=
| AOpen (connection : gostring)              (* sqlx.Open *)
| ASelect (rq : request)                     (* sqlx Select *)
| AExec (sql : gostring)                     (* sqlx Exec *)
| APost (path : gostring) (body : jv)        (* an HTTP request with a JSON body *)
| AWrite (path : gostring) (b : build_option)  (* html.CreateHtml *)
| AClose.
(** The server and the file system: any states, any answers.  Exec answers the
    milliseconds it took (index_examiner.go:25-32, time.Since) or an error. *)
Record world (W : Type) := {
  on_open : W -> gostring -> W * option gostring;
  on_select : W -> request -> W * outcome (list row);
  on_exec : W -> gostring -> W * (Z + gostring);
  on_write : W -> gostring -> build_option -> W * option gostring;
  on_close : W -> W }.
Arguments on_open {W}. Arguments on_select {W}. Arguments on_exec {W}. Arguments on_write {W}. Arguments on_close {W}.

(** infra/mysql/db.go:49 *)
Definition explain_mysql : gostring := lit "EXPLAIN ANALYZE FORMAT=TREE ".
(** infra/postgres/db.go:43 *)
Definition explain_pg : gostring := lit "EXPLAIN (ANALYZE, BUFFERS) ".
(** infra/mysql/db.go:51, infra/postgres/db.go:45 *)
Definition select_message : gostring := lit "failed to select: ".
(** infra/mysql/db.go:41, infra/postgres/db.go:35 *)
Definition exec_message (sql : gostring) : gostring := lit "failed to execute query: " ++ sql ++ lit ": ".
(** sqlx Select into a []string: rows of one column *)
(** infra/mysql/db.go:48-49, infra/postgres/db.go:42-43 *)
Definition scan_single (r : row) : outcome gostring :=
  match r with
  | [(_, VText s)] => Ok s
  | [(n, _)] => Err (scan_message n)
  | _ => Err (lit "non-struct dest type string with >1 columns")
  end.

Section Run.
  Context {W : Type} (sv : world W).
  (** one step after another, stopping at an error; no lines in /repo of its own *)
  Definition prog (A : Type) : Type := W -> list act * W * outcome A.
  (** one step after another, stopping at an error; no lines in /repo of its own *)
  Definition give {A} (x : outcome A) : prog A := fun w => ([], w, x).
  (** one step after another, stopping at an error; no lines in /repo of its own *)
  Definition andthen {A B} (p : prog A) (f : A -> prog B) : prog B := fun w =>
    let '(tr, w1, r) := p w in
    match r with
    | Ok x => let '(tr', w2, r') := f x w1 in (tr ++ tr', w2, r')
    | Err m => (tr, w1, Err m)
    | Panic => (tr, w1, Panic)
    end.
  (** one SELECT and the reading of its rows *)
  (** infra/mysql/db.go:68, infra/postgres/db.go:59 *)
  Definition select_as {A} (message : gostring) (rq : request) (f : row -> outcome A) : prog (list A) := fun w =>
    let '(w1, a) := on_select sv w rq in ([ASelect rq], w1, selected (fun _ => a) message rq f).
  (** infra/mysql/db.go:39-46 = infra/postgres/db.go:33-40 Exec *)
  Definition exec (w : W) (sql : gostring) : W * (Z + gostring) :=
    let '(w1, a) := on_exec sv w sql in
    (w1, match a with inl ms => inl ms | inr e => inr (exec_message sql ++ e) end).
  (** mservice/index_examiner.go:40-41,46-47: the error of Exec alone *)
  Definition exec_only (w : W) (sql : gostring) : W * option gostring :=
    let '(w1, a) := exec w sql in (w1, match a with inl _ => None | inr e => Some e end).
  (** mservice/index_examiner.go:23-48, pservice/index_examiner.go *)
  Definition server_of (query : gostring) : sql_server W :=
    {| srv_exec := exec_only; srv_query := fun w => exec w query |}.
  (** mservice/index_examiner.go:35-40,45-46, pservice/index_examiner.go *)
  Definition statement (create drop : gostring -> index_target -> act) (query : act) (e : event) : act :=
    match e with
    | EvExecute _ => query
    | EvCreate n it _ => create n it
    | EvDrop n it _ => drop n it
    end.
  (** mysql.go:97-111, postgres.go:97-111, hasura/postgres.go:143-157 examine *)
  Definition examine_with (db : database W) (create drop : gostring -> index_target -> act) (query : act)
      (unix : N) (rnds : nat -> N) (vars its : list index_target) : prog examination_result := fun w =>
    let targets := match vars with [] => filter is_safe its | _ => vars end in
    let '(tr, w1, r) := run db w unix rnds targets in
    (map (statement create drop query) tr, w1, r).
  (** mysql.go:78-95, postgres.go:78-95 *)
  Definition conclude (examination : prog examination_result) (runs : bool) (output : gostring)
      (html : option examination_result -> build_option) : prog unit :=
    andthen (if runs then andthen examination (fun er => give (Ok (Some er))) else give (Ok None)) (fun er =>
    match output with
    | [] => give (Ok tt)
    | _ => fun w => let '(w1, e) := on_write sv w output (html er) in
                    ([AWrite output (html er)], w1, match e with None => Ok tt | Some m => Err m end)
    end).
  (** mysql.go:51-55, postgres.go:51-55: open, and close when leaving *)
  Definition with_connection {A} (connection : gostring) (p : prog A) : prog A := fun w =>
    let '(w1, e) := on_open sv w connection in
    match e with
    | Some m => ([AOpen connection], w1, Err (lit "failed to connect: " ++ m))
    | None => let '(tr, w2, r) := p w1 in (AOpen connection :: tr ++ [AClose], on_close sv w2, r)
    end.

  Section Options.
    Context (fold : rune -> rune) (so : list gostring -> list gostring)
      (ord : order gostring) (ordf : order ifield) (srt : list index_target_table -> list index_target_table)
      (unix : N) (rnds : nat -> N)
      (runs : bool) (texts : list gostring) (query output : gostring).

    (** dservice/existing_index_remover.go:27-30 *)
    Definition table_names (its : list index_target) : list gostring :=
      uniq seqb (map (fun p => it_table (nth p its (mk_it [] []))) (uniq Nat.eqb (seq 0 (length its)))).
    (** dservice/existing_index_remover.go:37-57 *)
    Definition kept (its infos : list index_target) : list index_target :=
      map (fun p => nth p its (mk_it [] []))
        (remove_matched fold (fun p => nth p its (mk_it [] [])) infos (uniq Nat.eqb (seq 0 (length its)))).

    (** ** MySQL *)
    Section Mysql.
      Context (low : rune -> rune) (parse : gostring -> outcome (list MysqlAst.node)).
      (** infra/mysql/db.go:48-60, mservice/explainer.go:19-31 *)
      Definition mysql_explain : prog (tree MysqlExplain.result_line) :=
        andthen (select_as select_message (explain_mysql ++ query, []) scan_single) (fun l =>
        give (match l with
              | [] => Err (lit "no result for EXPLAIN ANALYZE")
              | line :: _ => MysqlExplain.build_explain line
              end)).
      (** infra/mysql/db.go:61-89 *)
      Definition mysql_ask_columns (db_name : gostring) (tables : list gostring) : prog (list (gostring * gostring * bool)) :=
        andthen (give (mysql_request mysql_column_template db_name tables)) (fun rq =>
        select_as (column_message (lit "schema")) rq mysql_scan_column).
      (** infra/mysql/db.go:76-89 *)
      Definition mysql_ask_indexes (db_name : gostring) (tables : list gostring) : prog (list index_target) :=
        andthen (give (mysql_request mysql_index_template db_name tables)) (fun rq =>
        andthen (select_as index_message rq mysql_scan_index) (fun rows => give (to_index_info rows))).
      (** mservice/index_suggester.go:24-51 with parser/index.go *)
      Definition mysql_suggest_with (db_name : gostring) : prog (list index_target) :=
        andthen (give (parse query)) (fun stmts =>
        match stmts with
        | [] => give Panic
        | root :: _ =>
            andthen (give (MysqlCollect.first_error (MysqlCollect.collect_table_names low so root))) (fun tables =>
            andthen (mysql_ask_columns db_name tables) (fun rows =>
            andthen (give (collect_table_schemas (fun _ => Ok rows) tables)) (fun schemas =>
            andthen (give (MysqlCollect.first_error (MysqlCollect.collect_scopes low root))) (fun scopes =>
            andthen (give (build ord ordf srt schemas scopes)) (fun its =>
            andthen (mysql_ask_indexes db_name (table_names its)) (fun infos =>
            give (Ok (kept its infos))))))))
        end).
      (** cmd/db/suggest/mysql.go:61-95 suggest *)
      Definition mysql_suggest_cmd (db_name : gostring) : prog unit :=
        andthen (give (new_index_targets_from_texts texts)) (fun vars =>
        andthen mysql_explain (fun plan =>
        andthen (mysql_suggest_with db_name) (fun its =>
        conclude (examine_with (mysql_examiner (server_of query)) (fun n it => AExec (mysql_create_sql n it)) (fun n it => AExec (mysql_drop_sql n it)) (AExec query) unix rnds vars its) runs output
          (suggest_html SubMysql runs output query [] None [] (plan_view mysql_vm plan) [] its)))).
      (** mysql.go:46-59 run *)
      Definition mysql_main (env : gostring -> gostring) : prog unit :=
        andthen (give (ConnText.my_config_from_env env)) (fun c =>
        with_connection (ConnText.to_dsn c) (mysql_suggest_cmd (ConnText.my_dbname c))).
    End Mysql.

    (** ** PostgreSQL *)
    Section Postgres.
      Context (norm : gostring -> gostring) (parse : gostring -> outcome (list PgAst.node)).
      (** infra/postgres/db.go:42-50, pservice/explainer.go:18-25 *)
      Definition pg_explain : prog (tree PgExplain.tree_node * gostring) :=
        andthen (select_as select_message (explain_pg ++ query, []) scan_single) (fun lines =>
        give (PgExplain.build_explain lines)).
      (** infra/postgres/db.go:51-81 *)
      Definition pg_ask_columns (schema : gostring) (tables : list gostring) : prog (list (gostring * gostring * bool)) :=
        andthen (give (pg_request pg_column_template schema tables)) (fun rq =>
        select_as (column_message (lit "column")) rq pg_scan_column).
      (** infra/postgres/db.go:67-81 *)
      Definition pg_ask_indexes (schema : gostring) (tables : list gostring) : prog (list index_target) :=
        andthen (give (pg_request pg_index_template schema tables)) (fun rq =>
        select_as index_message rq pg_scan_index).
      (** pservice/index_suggester.go:22-39 with parser/index.go *)
      Definition pg_suggest_with (schema : gostring) : prog (list index_target) :=
        andthen (give (parse query)) (fun stmts =>
        match stmts with
        | [] => give Panic
        | _ :: _ :: _ => give (Err (lit "not supporting query having multiple statements"))
        | [root] =>
            andthen (give (PgCollect.collect_table_names norm so root)) (fun r =>
            andthen (give (MysqlCollect.first_error r)) (fun tables =>
            andthen (pg_ask_columns schema tables) (fun rows =>
            andthen (give (collect_table_schemas (fun _ => Ok rows) tables)) (fun schemas =>
            andthen (give (PgCollect.collect_scopes norm (lit "public") root)) (fun r =>
            andthen (give (MysqlCollect.first_error r)) (fun scopes =>
            andthen (give (build ord ordf srt schemas scopes)) (fun its =>
            andthen (pg_ask_indexes schema (table_names its)) (fun infos =>
            give (Ok (kept its infos))))))))))
        end).
      (** cmd/db/suggest/postgres.go:61-95 suggest *)
      Definition pg_suggest_cmd (schema : gostring) : prog unit :=
        andthen (give (new_index_targets_from_texts texts)) (fun vars =>
        andthen pg_explain (fun plan =>
        andthen (pg_suggest_with schema) (fun its =>
        conclude (examine_with (pg_examiner (server_of query)) (fun n it => AExec (pg_create_sql n it)) (fun n it => AExec (pg_drop_sql n it)) (AExec query) unix rnds vars its) runs output
          (suggest_html SubPostgres runs output query [] None [] (plan_view pg_vm (fst plan)) (snd plan) its)))).
      (** postgres.go:46-59 run *)
      Definition pg_main (env : gostring -> gostring) : prog unit :=
        andthen (give (ConnText.pg_config_from_env env)) (fun c =>
        with_connection (ConnText.kv_connection_string c) (pg_suggest_cmd (ConnText.search_path_or_public c))).
    End Postgres.
  End Options.
End Run.
