(** The suggest commands with the lines they log, between the acts they stand between.
    The time stamp and the level in front of a line, and the lines of the HTTP transport
    (see Transport.v), are left out. *)
From Coq Require Import String List NArith ZArith QArith Bool Lia Arith.
From Verif Require Import Base Dec IndexText IndexBuild TableFields Existing ExplainTree PlanView SqlServer MetaSql Examiner SuggestCmd Json HandOver CommandText Program Paths Floats.
From Verif Require MysqlExplain PgExplain MysqlAst MysqlCollect PgAst PgCollect ConnText Hasura HasuraProgram.
Import ListNotations.
Local Open Scope nat_scope.

(** zerolog's levels that are used; log.Printf is Debug *)
(** zerolog; no lines in /repo, set at cmd/root.go:25-29 *)
Inductive level := Debug | Info | Error.
(** the order of lines and acts; no lines in /repo of their own *)
Inductive entry (A : Type) := Said (l : level) (t : gostring) | Did (a : A).
Arguments Said {A}. Arguments Did {A}.
(** the order of lines and acts; no lines in /repo of their own *)
Fixpoint acts {A} (d : list (entry A)) : list A :=
  match d with [] => [] | Did a :: d' => a :: acts d' | Said _ _ :: d' => acts d' end.
(** the order of lines and acts; no lines in /repo of their own *)
Fixpoint said {A} (d : list (entry A)) : list (level * gostring) :=
  match d with [] => [] | Did _ :: d' => said d' | Said l t :: d' => (l, t) :: said d' end.
(** cmd/root.go:22-34: the level set by --verbose *)
Definition loud (verbose : bool) (l : level) : bool := match l with Debug => verbose | _ => true end.
(** What is seen on the terminal *)
(** cmd/root.go:24-29 *)
Definition screen {A} (verbose : bool) (d : list (entry A)) : list gostring :=
  map snd (filter (fun p => loud verbose (fst p)) (said d)).

(** fmt's %d of an int64 *)
Definition int_text (z : Z) : gostring := if Z.ltb z 0 then lit "-" ++ dec_of_N (Z.to_N (- z)) else dec_of_N (Z.to_N z).
(** fmt's %.1f of (1 - t/o) * 100, examiner.go:61-64, computed with float64 *)
Definition reduced_text (t o : Z) : gostring := f_reduced_text fl t o.

(** ** The examination, examiner.go *)
(** examiner.go:83 *)
Definition creating (name : gostring) : gostring := lit "Creating index(" ++ name ++ lit ")...".
(** examiner.go:90 *)
Definition dropping (name : gostring) : gostring := lit "Dropping index(" ++ name ++ lit ")...".
(** examiner.go:106 *)
Definition executing : gostring := lit "Executing query...".
(** examiner.go:37, 45-50: the map of the results of each table, keys in the order of their first
    result *)
Fixpoint add_result (r : index_result) (g : list (gostring * list index_result)) : list (gostring * list index_result) :=
  match g with
  | [] => [(it_table (ir_target r), [r])]
  | (t, rs) :: g' => if seqb (it_table (ir_target r)) t then (t, rs ++ [r]) :: g' else (t, rs) :: add_result r g'
  end.
(** examiner.go:37-51 *)
Definition by_table (rs : list index_result) : list (gostring * list index_result) := fold_left (fun g r => add_result r g) rs [].
(** examiner.go:61-65 *)
Definition time_line (orig : Z) (r : index_result) : gostring :=
  lit "Time: " ++ int_text (ir_millis r) ++ lit "ms (" ++ reduced_text (ir_millis r) orig ++ lit "% reduced), Columns("
  ++ join (lit ",") (map safe_name (it_cols (ir_target r))) ++ lit ")".
(** examiner.go:59 *)
Definition faster (a b : index_result) : bool := Z.ltb (ir_millis a) (ir_millis b).

Section Examine.
  Context {W : Type} (db : database W).
  (** the order of the map and lib.Sort (lib/sort.go:8-15, sort.Slice) *)
  Context (tord : list (gostring * list index_result) -> list (gostring * list index_result))
    (rsrt : list index_result -> list index_result).
  (** examiner.go:54-67 *)
  Definition result_lines (orig : Z) (rs : list index_result) : list (entry event) :=
    Said Debug (lit "====RESULT====") :: Said Debug (lit "Original Time: " ++ int_text orig ++ lit "ms") ::
    flat_map (fun g => Said Debug (lit "==Table: " ++ fst g) :: map (fun r => Said Debug (time_line orig r)) (rsrt (snd g))) (tord (by_table rs)).
  (** examiner.go:74-108 examine and execute *)
  Definition examine_told (w : W) (id : gostring) (rnd : N) (it : index_target)
    : list (entry event) * W * outcome index_result :=
    let name := idx_name id rnd it in
    let '(w1, cerr) := db_create db w name it in
    let begun := [Said Info (creating name); Did (EvCreate name it cerr)] in
    match cerr with
    | Some e => (begun, w1, Err e)
    | None =>
        let '(w2, ex) := db_execute db w1 in
        let '(w3, derr) := db_drop db w2 name it in
        let tr := begun ++ [Said Info executing; Did (EvExecute ex); Said Info (dropping name); Did (EvDrop name it derr)] in
        match ex with
        | inr e => (tr, w3, Err e)
        | inl ms =>
            match derr with
            | Some e => (tr, w3, Err (lit "failed to drop index: " ++ e))
            | None => (tr, w3, Ok {| ir_target := it; ir_millis := ms |})
            end
        end
    end.
  (** examiner.go:39-51 *)
  Fixpoint loop_told (w : W) (id : gostring) (rnds : nat -> N) (k : nat) (its : list index_target)
    : list (entry event) * W * outcome (list index_result) :=
    match its with
    | [] => ([], w, Ok [])
    | it :: its' =>
        let '(tr, w1, r) := examine_told w id (rnds k) it in
        match r with
        | Ok res =>
            let '(tr', w2, r') := loop_told w1 id rnds (S k) its' in
            (tr ++ tr', w2, do rs <- r'; Ok (res :: rs))
        | Err e => (tr, w1, Err e)
        | Panic => (tr, w1, Panic)
        end
    end.
  (** examiner.go:30-70 *)
  Definition run_told (w : W) (unix : N) (rnds : nat -> N) (its : list index_target)
    : list (entry event) * W * outcome examination_result :=
    let '(w1, ex) := db_execute db w in
    let begun := [Said Info executing; Did (EvExecute ex)] in
    match ex with
    | inr e => (begun, w1, Err e)
    | inl orig =>
        let '(tr, w2, r) := loop_told w1 (dec_of_N unix) rnds 0 its in
        match r with
        | Ok rs => (begun ++ tr ++ result_lines orig rs, w2, Ok {| er_results := rs; er_original := orig |})
        | Err e => (begun ++ tr, w2, Err e)
        | Panic => (begun ++ tr, w2, Panic)
        end
    end.
End Examine.

(** ** The lines of the commands *)
(** cmd/util/log.go:29-31 and collect_table_schemas.go:27-30 *)
Fixpoint numbered (text : nat -> gostring) (k : nat) {A} (f : A -> gostring) (l : list A) : list gostring :=
  match l with [] => [] | x :: l' => (text k ++ f x) :: numbered text (S k) f l' end.
(** dmodel/index_target.go:78-85 CombinationString *)
Definition combination (it : index_target) : gostring :=
  lit "table: " ++ it_table it ++ lit ", columns: [" ++ join (lit ", ") (it_cols it) ++ lit "])".
(** cmd/util/log.go:26-35 LogNewIndexTargets *)
Definition target_lines (its : list index_target) : list (level * gostring) :=
  match its with
  | [] => [(Debug, lit "No possibly efficient index found. Perhaps already indexed?")]
  | _ => map (fun t => (Debug, t)) (lit "Found possibly efficient index combinations:" ::
           numbered (fun k => 9%N :: dec_of_N (N.of_nat k) ++ lit ".") 0 combination its)
  end.
(** dparser/table_schema.go:49-57 TableDescription *)
Definition description (ts : table_schema) : gostring :=
  lit "Table(name: " ++ ts_name ts ++ lit ", columns: [" ++ join (lit ", ") (ts_cols ts) ++ lit "], primaryKeys: [" ++ join (lit " ") (ts_pks ts) ++ lit "])".
(** mysql/mservice/parser/collect_table_schemas.go:27-30 and its two copies *)
Definition schema_lines (schemas : list table_schema) : list (level * gostring) :=
  map (fun t => (Debug, t)) (lit "Table schemas:" :: numbered (fun k => 9%N :: dec_of_N (N.of_nat k) ++ lit ". ") 0 description schemas).
(** cmd/util/log.go:18-23 *)
Definition output_lines (wd : option gostring) (output : gostring) : list (level * gostring) :=
  match logged_output wd output with Some p => [(Info, lit "Result html is at: " ++ p)] | None => [] end.

Section Run.
  Context {W : Type}.
  (** an act after the other, with the lines between; no lines in /repo of their own *)
  Definition noisy (A : Type) : Type := W -> list (entry act) * W * outcome A.
  (** an act after the other, with the lines between; no lines in /repo of their own *)
  Definition quiet {A} (p : @prog W A) : noisy A := fun w => let '(tr, w1, r) := p w in (map Did tr, w1, r).
  (** an act after the other, with the lines between; no lines in /repo of their own *)
  Definition say (l : list (level * gostring)) : noisy unit := fun w => (map (fun p => Said (fst p) (snd p)) l, w, Ok tt).
  (** an act after the other, with the lines between; no lines in /repo of their own *)
  Definition nthen {A B} (p : noisy A) (f : A -> noisy B) : noisy B := fun w =>
    let '(d, w1, r) := p w in
    match r with
    | Ok x => let '(d', w2, r') := f x w1 in (d ++ d', w2, r')
    | Err m => (d, w1, Err m)
    | Panic => (d, w1, Panic)
    end.
  Context (tord : list (gostring * list index_result) -> list (gostring * list index_result))
    (rsrt : list index_result -> list index_result).
  (** index_examiner.go:23-48 of the database (MySQL's lines): what each step of examiner.go:74-108 sends *)
  Definition entry_statement (create drop : gostring -> index_target -> act) (query : act) (e : entry event) : entry act :=
    match e with Said l t => Said l t | Did e => Did (statement create drop query e) end.
  (** mysql.go:97-111, postgres.go:97-111, hasura/postgres.go:143-157 examine *)
  Definition examine_aloud (db : database W) (create drop : gostring -> index_target -> act) (query : act)
      (unix : N) (rnds : nat -> N) (vars its : list index_target) : noisy examination_result :=
    nthen (say [(Info, lit "Start examination...")]) (fun _ w =>
    let targets := match vars with [] => filter is_safe its | _ => vars end in
    let '(d, w1, r) := run_told db tord rsrt w unix rnds targets in
    (map (entry_statement create drop query) d, w1, r)).
  (** mysql.go:78-95, postgres.go:78-95, hasura/postgres.go:115-131; [wd] is what os.Getwd gives *)
  Definition conclude_aloud (sv : world W) (wd : option gostring) (examination : noisy examination_result) (runs : bool) (output : gostring)
      (html : option examination_result -> build_option) : noisy unit :=
    nthen (if runs then nthen examination (fun er => quiet (give (Ok (Some er)))) else quiet (give (Ok None))) (fun er =>
    match output with
    | [] => quiet (give (Ok tt))
    | _ => nthen (quiet (fun w => let '(w1, e) := on_write sv w output (html er) in
                    ([AWrite output (html er)], w1, match e with None => Ok tt | Some m => Err m end))) (fun _ =>
           say (output_lines wd output))
    end).
  (** mysql.go:51-55, postgres.go:51-55 *)
  Definition connected_aloud {A} (sv : world W) (connection : gostring) (p : noisy A) : noisy A := fun w =>
    let '(w1, e) := on_open sv w connection in
    match e with
    | Some m => ([Did (AOpen connection)], w1, Err (lit "failed to connect: " ++ m))
    | None => let '(d, w2, r) := p w1 in (Did (AOpen connection) :: d ++ [Did AClose], on_close sv w2, r)
    end.
  (** How a process ends: its status, or a panic (status 2, its text is left out) *)
  Inductive ending := Exit (status : N) | Crash.
  (** cmd/root.go:22-45: the note about the mock in front; main.go:24 and LogError (cmd/util/log.go:10-16)
      at the end.  [detail] adds what %+v prints with --verbose (stack traces). *)
  Definition process (detail : gostring -> gostring) (verbose mock : bool) (p : noisy unit) (w : W) : list (entry act) * W * ending :=
    let front := if mock then [Said Info (lit "NOTE: Using mock")] else [] in
    let '(d, w1, r) := p w in
    match r with
    | Ok _ => (front ++ d, w1, Exit 0)
    | Err m => (front ++ d ++ [Said Error (if verbose then detail m else m)], w1, Exit 1)
    | Panic => (front ++ d, w1, Crash)
    end.

  Section Options.
    Context (fold : rune -> rune) (so : list gostring -> list gostring)
      (ord : order gostring) (ordf : order ifield) (srt : list index_target_table -> list index_target_table)
      (unix : N) (rnds : nat -> N) (wd : option gostring)
      (runs : bool) (texts : list gostring) (query output : gostring).
    (** ** MySQL: mservice/index_suggester.go:24-51, mysql.go:61-95 *)
    Section Mysql.
      Context (sv : world W) (low : rune -> rune) (parse : gostring -> outcome (list MysqlAst.node)).
      (** mservice/index_suggester.go:24-51 *)
      Definition mysql_suggest_aloud (db_name : gostring) : noisy (list index_target) :=
        nthen (quiet (give (parse query))) (fun stmts =>
        match stmts with
        | [] => quiet (give Panic)
        | root :: _ =>
            nthen (quiet (give (MysqlCollect.first_error (MysqlCollect.collect_table_names low so root)))) (fun tables =>
            nthen (quiet (mysql_ask_columns sv db_name tables)) (fun rows =>
            nthen (quiet (give (collect_table_schemas (fun _ => Ok rows) tables))) (fun schemas =>
            nthen (say (schema_lines schemas)) (fun _ =>
            nthen (quiet (give (MysqlCollect.first_error (MysqlCollect.collect_scopes low root)))) (fun scopes =>
            nthen (quiet (give (build ord ordf srt schemas scopes))) (fun its =>
            nthen (quiet (mysql_ask_indexes sv db_name (table_names its))) (fun infos =>
            quiet (give (Ok (kept fold its infos))))))))))
        end).
      (** mysql.go:61-95 *)
      Definition mysql_cmd_aloud (db_name : gostring) : noisy unit :=
        nthen (quiet (give (new_index_targets_from_texts texts))) (fun vars =>
        nthen (quiet (mysql_explain sv query)) (fun plan =>
        nthen (mysql_suggest_aloud db_name) (fun its =>
        nthen (say (target_lines its)) (fun _ =>
        conclude_aloud sv wd (examine_aloud (mysql_examiner (server_of sv query)) (fun n it => AExec (mysql_create_sql n it)) (fun n it => AExec (mysql_drop_sql n it)) (AExec query) unix rnds vars its) runs output
          (suggest_html SubMysql runs output query [] None [] (plan_view mysql_vm plan) [] its))))).
      (** mysql.go:46-59 *)
      Definition mysql_aloud (env : gostring -> gostring) : noisy unit :=
        nthen (quiet (give (ConnText.my_config_from_env env))) (fun c =>
        connected_aloud sv (ConnText.to_dsn c) (mysql_cmd_aloud (ConnText.my_dbname c))).
    End Mysql.
    (** ** PostgreSQL: pservice/index_suggester.go:22-39, postgres.go:61-95 *)
    Section Postgres.
      Context (sv : world W) (norm : gostring -> gostring) (parse : gostring -> outcome (list PgAst.node)).
      (** pservice/index_suggester.go:22-39 *)
      Definition pg_suggest_aloud (schema : gostring) : noisy (list index_target) :=
        nthen (quiet (give (parse query))) (fun stmts =>
        match stmts with
        | [] => quiet (give Panic)
        | _ :: _ :: _ => quiet (give (Err (lit "not supporting query having multiple statements")))
        | [root] =>
            nthen (quiet (give (PgCollect.collect_table_names norm so root))) (fun r =>
            nthen (quiet (give (MysqlCollect.first_error r))) (fun tables =>
            nthen (quiet (pg_ask_columns sv schema tables)) (fun rows =>
            nthen (quiet (give (collect_table_schemas (fun _ => Ok rows) tables))) (fun schemas =>
            nthen (say (schema_lines schemas)) (fun _ =>
            nthen (quiet (give (PgCollect.collect_scopes norm (lit "public") root))) (fun r =>
            nthen (quiet (give (MysqlCollect.first_error r))) (fun scopes =>
            nthen (quiet (give (build ord ordf srt schemas scopes))) (fun its =>
            nthen (quiet (pg_ask_indexes sv schema (table_names its))) (fun infos =>
            quiet (give (Ok (kept fold its infos))))))))))))
        end).
      (** postgres.go:61-95 *)
      Definition pg_cmd_aloud (schema : gostring) : noisy unit :=
        nthen (quiet (give (new_index_targets_from_texts texts))) (fun vars =>
        nthen (quiet (pg_explain sv query)) (fun plan =>
        nthen (pg_suggest_aloud schema) (fun its =>
        nthen (say (target_lines its)) (fun _ =>
        conclude_aloud sv wd (examine_aloud (pg_examiner (server_of sv query)) (fun n it => AExec (pg_create_sql n it)) (fun n it => AExec (pg_drop_sql n it)) (AExec query) unix rnds vars its) runs output
          (suggest_html SubPostgres runs output query [] None [] (plan_view pg_vm (fst plan)) (snd plan) its))))).
      (** postgres.go:46-59 *)
      Definition pg_aloud (env : gostring -> gostring) : noisy unit :=
        nthen (quiet (give (ConnText.pg_config_from_env env))) (fun c =>
        connected_aloud sv (ConnText.kv_connection_string c) (pg_cmd_aloud (ConnText.search_path_or_public c))).
    End Postgres.
    (** ** Hasura: hservice/index_suggester.go, hasura/postgres.go:63-132 *)
    Section Hasura.
      Context (hv : HasuraProgram.hworld W) (unmarshal : gostring -> option jv) (kfold : rune -> rune)
        (norm : gostring -> gostring) (parse : gostring -> outcome (list PgAst.node)) (scan : gostring -> outcome (list gostring)) (variables : gostring).
      (** hservice/index_suggester.go:21-48 *)
      Definition hasura_suggest_aloud (sql : gostring) : noisy (list index_target) :=
        nthen (quiet (give (parse sql))) (fun stmts =>
        match stmts with
        | [] => quiet (give Panic)
        | _ :: _ :: _ => quiet (give (Err (lit "not supporting query having multiple statements")))
        | [root] =>
            nthen (quiet (give (PgCollect.collect_table_names norm so root))) (fun r =>
            nthen (quiet (give (MysqlCollect.first_error r))) (fun tables =>
            nthen (quiet (HasuraProgram.ask_columns hv unmarshal kfold tables)) (fun cols =>
            nthen (quiet (give (check_schemas tables (create_table_schemas tables cols)))) (fun schemas =>
            nthen (say (schema_lines schemas)) (fun _ =>
            nthen (quiet (give (PgCollect.collect_scopes norm (lit "public") root))) (fun r =>
            nthen (quiet (give (MysqlCollect.first_error r))) (fun scopes =>
            nthen (quiet (give (build ord ordf srt schemas scopes))) (fun its =>
            nthen (quiet (HasuraProgram.ask_indexes hv unmarshal kfold scan (table_names its))) (fun infos =>
            quiet (give (Ok (kept fold its infos))))))))))))
        end).
      (** hasura/postgres.go:83-132 *)
      Definition hasura_cmd_aloud (v : option (list (gostring * jv))) : noisy unit :=
        nthen (quiet (HasuraProgram.explain_gql hv unmarshal kfold query v)) (fun res =>
        match res with
        | [None] => quiet (give Panic)
        | [Some r] =>
            nthen (quiet (give (PgExplain.build_explain (HasuraProgram.ex_plan r)))) (fun plan =>
            nthen (hasura_suggest_aloud (HasuraProgram.ex_sql r)) (fun its =>
            nthen (say (target_lines its)) (fun _ =>
            nthen (quiet (give (new_index_targets_from_texts texts))) (fun vars =>
            conclude_aloud (HasuraProgram.writer hv) wd
              (examine_aloud (HasuraProgram.hasura_examiner hv unmarshal kfold query v)
                 (fun n it => APost HasuraProgram.query_path (HasuraProgram.run_sql_json {| Hasura.rs_sql := pg_create_sql n it; Hasura.rs_read_only := None |}))
                 (fun n it => APost HasuraProgram.query_path (HasuraProgram.run_sql_json {| Hasura.rs_sql := pg_drop_sql n it; Hasura.rs_read_only := None |}))
                 (APost HasuraProgram.graphql_path (HasuraProgram.gql_json query v)) unix rnds vars its) runs output
              (suggest_html SubHasura runs output query variables v (HasuraProgram.ex_sql r) (plan_view pg_vm (fst plan)) (snd plan) its)))))
        | _ => quiet (give (Err (HasuraProgram.many_message (length res))))
        end).
      (** hasura/postgres.go:63-81 *)
      Definition hasura_aloud (float : Q -> option Q) (parse_url : gostring -> outcome unit) (env : gostring -> gostring) : noisy unit :=
        nthen (quiet (give (HasuraProgram.parse_variables float unmarshal variables))) (fun v =>
        nthen (quiet (give (ConnText.hasura_config_from_env parse_url env))) (fun _ =>
        hasura_cmd_aloud v)).
    End Hasura.
  End Options.
End Run.
