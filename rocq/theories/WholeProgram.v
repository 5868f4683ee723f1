(** The suggest commands from the command line on. *)
From Coq Require Import String List NArith ZArith QArith Bool.
From Verif Require Import Base IndexText IndexBuild TableFields SqlServer Examiner CommandText CommandLine Json HandOver Program HasuraProgram.
From Verif Require MysqlAst PgAst PgArray.
Import ListNotations.

Section Whole.
  Context {W : Type} (sv : world W) (low fold : rune -> rune) (norm : gostring -> gostring) (so : list gostring -> list gostring)
    (ord : order gostring) (ordf : order ifield) (srt : list index_target_table -> list index_target_table)
    (my_parse : gostring -> outcome (list MysqlAst.node)) (pg_parse : gostring -> outcome (list PgAst.node))
    (parse_int : gostring -> outcome Z) (q : gostring -> gostring) (q1 : rune -> gostring)
    (** Hasura: the server, JSON texts and the names of members, float64 and url.Parse *)
    (hv : hworld W) (unmarshal : gostring -> option jv) (kfold : rune -> rune) (float : Q -> option Q) (parse_url : gostring -> outcome unit)
    (** the other commands *)
    (other : job -> settings -> @prog W unit).
  (** main.go:19-26, cmd/root.go:39-45, the RunE functions of cmd/db/suggest/mysql.go:21-23,
      postgres.go:21-23 and hasura/postgres.go:24-36: the error of a command line is returned like one of a command *)
  Definition gr (unix : N) (rnds : nat -> N) (env : gostring -> gostring) (argv : list gostring) : @prog W unit :=
    match start_of parse_int q q1 root_cmd argv with
    | Ok ShowHelp => give (Ok tt)
    | Ok (Run MysqlCmd st _) =>
        let o := suggest_options_of st in
        mysql_main sv fold so ord ordf srt unix rnds (so_runs o) (so_texts o) (so_query o) (so_output o) low my_parse env
    | Ok (Run PostgresCmd st _) =>
        let o := suggest_options_of st in
        pg_main sv fold so ord ordf srt unix rnds (so_runs o) (so_texts o) (so_query o) (so_output o) norm pg_parse env
    | Ok (Run HasuraPostgresCmd st _) =>
        let o := suggest_options_of st in
        hasura_main hv unmarshal kfold fold so ord ordf srt unix rnds norm pg_parse PgArray.array_in float parse_url env
          (so_runs o) (so_texts o) (so_query o) (so_variables o) (so_output o)
    | Ok (Run j st _) => other j st
    | Err m => give (Err m)
    | Panic => give Panic
    end.
End Whole.
