(** The data of a report on both sides: the Go structures as JSON (html/build_option.go,
    html/viewmodel), the page's objects (client/src/stores/gr_param.ts, client/src/models)
    and the pages (client/src/App.svelte, Mermaid.svelte, pages, components).
    Simplifications: numbers are exact; a nil map, slice or pointer is [None]; the classes
    of class-transformer are records, so a field of another type than the class declares
    makes the reader here fail where JavaScript would go on with the odd value; texts with
    a number in the style of the reader's country are that number. *)
From Coq Require Import String List NArith ZArith QArith Bool Lia Arith.
From Verif Require Import Base Json ExplainTree IndexText Examiner CommandText PlanView Otel Pi LoadCharts TraceDiagram.
Import ListNotations.
Local Open Scope nat_scope.

(** ** Go *)

(** Go: [append] to a nil slice; dmodel/index_target.go:68-71 and the like *)
Definition appended {A} (l : list A) : option (list A) := match l with [] => None | _ => Some l end.
(** encoding/json of a slice; no lines in /repo *)
Definition slice {A} (f : A -> jv) (l : option (list A)) : jv :=
  match l with None => JNull | Some l => JArr (map f l) end.
(** encoding/json of a pointer; no lines in /repo *)
Definition pointer {A} (f : A -> jv) (p : option A) : jv := match p with None => JNull | Some x => f x end.
(** encoding/json of an integer; no lines in /repo *)
Definition jint (z : Z) : jv := JNum (inject_Z z).
(** gopkg.in/guregu/null.v4 MarshalJSON *)
Definition jfloat_null (x : null_float) : jv := pointer JNum x.
(** the same for null.Int *)
Definition jint_null (x : null_int) : jv := pointer jint x.

(** viewmodel/vm_index_target.go, vm_index_column.go after
    database/dmodel/index_target.go:67-76 *)
Definition target_json (it : index_target) : jv :=
  JObj [(lit "tableName", JStr (it_table it));
        (lit "columns", slice (fun c => JObj [(lit "name", JStr c)]) (appended (it_cols it)))].
(** viewmodel/vm_examination_command_option.go:8-12 *)
Definition option_json (o : cmd_option) : jv :=
  JObj [(lit "isShort", JBool (co_short o)); (lit "name", JStr (co_name o)); (lit "value", JStr (co_value o))].
(** viewmodel/vm_examination_index_result.go, vm_examination_result.go after
    dmodel/examination_index_result.go:19-24 and examination_result.go:17-27 *)
Definition index_result_json (r : index_result) : jv :=
  JObj [(lit "executionTimeMillis", jint (ir_millis r)); (lit "indexTarget", target_json (ir_target r))].
(** viewmodel/vm_examination_result.go:3-6 after dmodel/examination_result.go:17-27 *)
Definition result_json (r : examination_result) : jv :=
  JObj [(lit "originalTimeMillis", jint (er_original r));
        (lit "indexResults", slice index_result_json (appended (er_results r)))].
(** viewmodel/vm_mysql_explain_analyze_node.go:5-18 *)
Fixpoint mysql_node_json (t : tree vm_node) : jv :=
  match t with
  | Node n cs =>
      JObj [(lit "text", JStr (vn_text n)); (lit "title", JStr (vn_title n)); (lit "tableName", JStr (vn_table n));
            (lit "estimatedInitCost", jfloat_null (vn_init_cost n)); (lit "estimatedCost", jfloat_null (vn_cost n));
            (lit "estimatedReturnedRows", jint_null (vn_rows n));
            (lit "actualTimeFirstRow", jfloat_null (vn_time_first n)); (lit "actualTimeAvg", jfloat_null (vn_time_avg n));
            (lit "actualReturnedRows", jint_null (vn_returned n)); (lit "actualLoopCount", jint_null (vn_loops n));
            (lit "children", match cs with [] => JNull | _ => JArr (map mysql_node_json cs) end)]
  end.
(** viewmodel/vm_postgres_explain_analyze_node.go:5-19 *)
Fixpoint pg_node_json (t : tree vm_node) : jv :=
  match t with
  | Node n cs =>
      JObj [(lit "text", JStr (vn_text n)); (lit "title", JStr (vn_title n)); (lit "tableName", JStr (vn_table n));
            (lit "estimatedInitCost", jfloat_null (vn_init_cost n)); (lit "estimatedCost", jfloat_null (vn_cost n));
            (lit "estimatedReturnedRows", jint_null (vn_rows n)); (lit "estimatedWidth", jint_null (vn_width n));
            (lit "actualTimeFirstRow", jfloat_null (vn_time_first n)); (lit "actualTimeAvg", jfloat_null (vn_time_avg n));
            (lit "actualReturnedRows", jint_null (vn_returned n)); (lit "actualLoopCount", jint_null (vn_loops n));
            (lit "children", match cs with [] => JNull | _ => JArr (map pg_node_json cs) end)]
  end.
(** viewmodel/vm_db_load_of_sql.go:3-8 *)
Definition sql_load_json (l : load) : jv :=
  JObj [(lit "sql", JStr (sl_sql l)); (lit "loadMax", JNum (sl_max l)); (lit "loadSum", JNum (sl_sum l));
        (lit "tokenizedId", JStr (sl_tok l))].
(** viewmodel/vm_db_load.go:3-6, 8-13: the list is never nil *)
Definition db_load_json (d : @db_load Q) : jv :=
  JObj [(lit "name", JStr (dl_name d)); (lit "sqls", JArr (map sql_load_json (dl_sqls d)))].
(** viewmodel/vm_time_db_load.go:10-17, 19-24: the list is never nil *)
Definition row_json (r : row) : jv :=
  JObj [(lit "timestamp", jint (row_date r)); (lit "databases", JArr (map db_load_json (tl_dbs r)))].
(** viewmodel/vm_otel_trace_span.go:3-10; lo.Map never gives nil *)
Fixpoint span_json (t : tree vm_span) : jv :=
  match t with
  | Node s cs =>
      JObj [(lit "name", JStr (v_name s)); (lit "spanId", JStr (v_id s)); (lit "startTimeMillis", jint (v_start s));
            (lit "endTimeMillis", jint (v_end s)); (lit "serviceName", JStr (v_service s));
            (lit "children", JArr (map span_json cs))]
  end.
(** viewmodel/vm_otel_compact_trace.go:3-8 *)
Definition trace_json (t : vm_trace) : jv :=
  JObj [(lit "traceId", JStr (vt_id t)); (lit "sameServiceAccessCount", jint (vt_count t));
        (lit "timeConsumingServiceName", JStr (vt_service t)); (lit "root", span_json (vt_root t))].

(** html/build_option.go:13-43.  The summary is only PostgreSQL's, [sd_gql] only
    Hasura's: the query with its variables, whose map may be nil. *)
Record suggest_data := {
  sd_query : gostring;
  sd_nodes : option (list (tree vm_node));
  sd_summary : gostring;
  sd_gql : gostring * option (list (gostring * jv));
  sd_targets : option (list index_target);
  sd_options : list cmd_option;
  sd_result : option examination_result }.
(** html/build_option.go:55-61 *)
Record jaeger_data := {
  jd_ui : gostring; jd_slow_ms : Z; jd_same : Z; jd_slow : list vm_trace; jd_same_service : list vm_trace }.
(** build_option.go:63-66; one constructor for each of the functions at 68-157 *)
Inductive build_option :=
| BoMysql (d : suggest_data)
| BoPostgres (d : suggest_data)
| BoHasura (d : suggest_data)
| BoPi (sqls tokenized : option (list row))
| BoJaeger (d : jaeger_data).

(** html/build_option.go:13-19, 68-84 *)
Definition mysql_json (d : suggest_data) : jv :=
  JObj [(lit "query", JStr (sd_query d)); (lit "analyzeNodes", slice mysql_node_json (sd_nodes d));
        (lit "indexTargets", slice target_json (sd_targets d));
        (lit "examinationCommandOptions", JArr (map option_json (sd_options d)));
        (lit "examinationResult", pointer result_json (sd_result d))].
(** html/build_option.go:21-28, 86-104 *)
Definition postgres_json (d : suggest_data) : jv :=
  JObj [(lit "query", JStr (sd_query d)); (lit "analyzeNodes", slice pg_node_json (sd_nodes d));
        (lit "summaryText", JStr (sd_summary d));
        (lit "indexTargets", slice target_json (sd_targets d));
        (lit "examinationCommandOptions", JArr (map option_json (sd_options d)));
        (lit "examinationResult", pointer result_json (sd_result d))].
(** html/build_option.go:30-43, 106-130 *)
Definition hasura_json (d : suggest_data) : jv :=
  JObj [(lit "postgres",
    JObj [(lit "gql", JStr (fst (sd_gql d))); (lit "gqlVariables", pointer JObj (snd (sd_gql d)));
          (lit "query", JStr (sd_query d)); (lit "analyzeNodes", slice pg_node_json (sd_nodes d));
          (lit "summaryText", JStr (sd_summary d));
          (lit "indexTargets", slice target_json (sd_targets d));
          (lit "examinationCommandOptions", JArr (map option_json (sd_options d)));
          (lit "examinationResult", pointer result_json (sd_result d))])].
(** html/build_option.go:50-53, 132-139 *)
Definition pi_json (sqls tokenized : option (list row)) : jv :=
  JObj [(lit "sqlDbLoads", slice row_json sqls); (lit "tokenizedSqlDbLoads", slice row_json tokenized)].
(** html/build_option.go:55-61, 141-157 *)
Definition jaeger_json (d : jaeger_data) : jv :=
  JObj [(lit "uiPath", JStr (jd_ui d)); (lit "slowThresholdMilli", jint (jd_slow_ms d));
        (lit "sameServiceThreshold", jint (jd_same d)); (lit "slowTraces", JArr (map trace_json (jd_slow d)));
        (lit "sameServiceTraces", JArr (map trace_json (jd_same_service d)))].
(** build_option.go:7-11 *)
Definition suggest_json (mysql postgres hasura : jv) : jv :=
  JObj [(lit "mysql", mysql); (lit "postgres", postgres); (lit "hasura", hasura)].
(** html/build_option.go:45-48 *)
Definition dig_json (pi jaeger : jv) : jv :=
  JObj [(lit "performanceInsights", pi); (lit "jaeger", jaeger)].
(** html/build_option.go:159-164 createGrMap; encoding/json sorts the keys of a map *)
Definition gr_map (b : build_option) : jv :=
  let mk sug dig := JObj [(lit "digData", dig); (lit "suggestData", sug)] in
  match b with
  | BoMysql d => mk (suggest_json (mysql_json d) JNull JNull) JNull
  | BoPostgres d => mk (suggest_json JNull (postgres_json d) JNull) JNull
  | BoHasura d => mk (suggest_json JNull JNull (hasura_json d)) JNull
  | BoPi s t => mk JNull (dig_json (pi_json s t) JNull)
  | BoJaeger d => mk JNull (dig_json JNull (jaeger_json d))
  end.

(** cmd/db/suggest/mysql.go:113-137 createHTML; postgres.go:113-143; hasura/postgres.go:159-186 *)
Definition suggest_html (k : sub_command) (runs : bool) (output query variables : gostring)
    (parsed : option (list (gostring * jv))) (sql : gostring)
    (nodes : option (list (tree vm_node))) (summary : gostring)
    (its : list index_target) (er : option examination_result) : build_option :=
  let mk q sm gql targets :=
    {| sd_query := q; sd_nodes := nodes; sd_summary := sm; sd_gql := gql; sd_targets := targets;
       sd_options := report_options k runs output query variables; sd_result := er |} in
  match k with
  | SubMysql => BoMysql (mk query [] ([], None) (Some its))
  | SubPostgres => BoPostgres (mk query summary ([], None) (appended its))
  | SubHasura => BoHasura (mk sql summary (query, parsed) (Some its))
  end.
(** html/html_builder.go:11-14 and its callers: the bundle that reads the data *)
Inductive bundle := Main | Mermaid.
(** cmd/app/dig/jaeger.go:141-162 calls BuildMermaid, the other commands BuildMain *)
Definition bundle_of (b : build_option) : bundle := match b with BoJaeger _ => Mermaid | _ => Main end.

(** ** Browser *)

(** JavaScript: a member of an object; [None] is undefined; no lines in /repo *)
Fixpoint member (k : gostring) (l : list (gostring * jv)) : option jv :=
  match l with [] => None | (k', v) :: l' => if seqb k k' then Some v else member k l' end.
(** JavaScript: reading a member of null is a TypeError; no lines in /repo *)
Definition get (k : gostring) (v : jv) : outcome jv :=
  match v with
  | JNull => Panic
  | JObj l => Ok (match member k l with Some x => x | None => JNull end)
  | _ => Ok JNull
  end.
(** JavaScript: [!!v] and the condition of an if; no lines in /repo *)
Definition truthy (v : jv) : bool :=
  match v with
  | JNull => false
  | JBool b => b
  | JNum q => negb (Qeq_bool q 0)
  | JStr s => negb (seqb s [])
  | _ => true
  end.
(** JavaScript: the value of an object literal, where __proto__ is no member of its own; no lines in /repo *)
Fixpoint evaluated (v : jv) : jv :=
  match v with
  | JArr l => JArr (map evaluated l)
  | JObj l => JObj ((fix go l := match l with
                                 | [] => []
                                 | (k, x) :: l' => if seqb k (lit "__proto__") then go l' else (k, evaluated x) :: go l'
                                 end) l)
  | _ => v
  end.

(** a field declared string (class-transformer; no lines in /repo) *)
Definition as_str (v : jv) : outcome gostring := match v with JStr s => Ok s | _ => Panic end.
(** a field declared boolean (class-transformer; no lines in /repo) *)
Definition as_bool (v : jv) : outcome bool := match v with JBool b => Ok b | _ => Panic end.
(** a field declared number (class-transformer; no lines in /repo) *)
Definition as_num (v : jv) : outcome Q := match v with JNum q => Ok q | _ => Panic end.
(** a field declared number whose values are whole (class-transformer; no lines in /repo) *)
Definition as_int (v : jv) : outcome Z :=
  match v with JNum q => if Pos.eqb (Qden q) 1 then Ok (Qnum q) else Panic | _ => Panic end.
(** a field that may be null (class-transformer; no lines in /repo) *)
Definition nullable {A} (f : jv -> outcome A) (v : jv) : outcome (option A) :=
  match v with JNull => Ok None | _ => do x <- f v; Ok (Some x) end.
(** JavaScript's map, left by the first exception; no lines in /repo *)
Fixpoint all_ok {A} (l : list (outcome A)) : outcome (list A) :=
  match l with
  | [] => Ok []
  | x :: l' => do a <- x; do r <- all_ok l'; Ok (a :: r)
  end.
(** a field declared an array, with @Type (class-transformer; no lines in /repo) *)
Definition as_list {A} (f : jv -> outcome A) (v : jv) : outcome (list A) :=
  match v with JArr l => all_ok (map f l) | _ => Panic end.
(** one field of a class (class-transformer; no lines in /repo) *)
Definition field {A} (f : jv -> outcome A) (k : gostring) (v : jv) : outcome A := do x <- get k v; f x.

(** client/src/models/IndexTarget.ts:4-7, IndexColumn.ts *)
Record page_target := { pt_table : gostring; pt_columns : option (list gostring) }.
(** IndexTarget.ts:4-7, IndexColumn.ts:1-3 with @Type *)
Definition read_target (v : jv) : outcome page_target :=
  do t <- field as_str (lit "tableName") v;
  do c <- field (nullable (as_list (field as_str (lit "name")))) (lit "columns") v;
  Ok {| pt_table := t; pt_columns := c |}.
(** ExaminationCommandOption.ts:1-4 *)
Definition read_option (v : jv) : outcome cmd_option :=
  do n <- field as_str (lit "name") v;
  do x <- field as_str (lit "value") v;
  do s <- field as_bool (lit "isShort") v;
  Ok (mk_opt s n x).
(** ExaminationIndexResult.ts:4-7, ExaminationResult.ts *)
Record page_index_result := { pi_target : page_target; pi_millis : Z }.
(** ExaminationResult.ts:4-9 *)
Record page_result := { pr_original : Z; pr_results : option (list page_index_result) }.
(** ExaminationIndexResult.ts:4-7 with @Type *)
Definition read_index_result (v : jv) : outcome page_index_result :=
  do t <- field read_target (lit "indexTarget") v;
  do m <- field as_int (lit "executionTimeMillis") v;
  Ok {| pi_target := t; pi_millis := m |}.
(** ExaminationResult.ts:4-9 with @Type *)
Definition read_result (v : jv) : outcome page_result :=
  do o <- field as_int (lit "originalTimeMillis") v;
  do r <- field (nullable (as_list read_index_result)) (lit "indexResults") v;
  Ok {| pr_original := o; pr_results := r |}.
(** explain_data/DbExplainData.ts:1-4, DbAnalyzeData.ts:3-8, MysqlAnalyzeData.ts:9-11,
    PostgresAnalyzeData.ts:8-11, PostgresExplainData.ts:8-11: all fields but the children.  Null
    children are none. *)
Definition read_node_fields (v : jv) : outcome vm_node :=
  do text <- field as_str (lit "text") v;
  do title <- field as_str (lit "title") v;
  do table <- field as_str (lit "tableName") v;
  do first <- field (nullable as_num) (lit "actualTimeFirstRow") v;
  do avg <- field (nullable as_num) (lit "actualTimeAvg") v;
  do returned <- field (nullable as_int) (lit "actualReturnedRows") v;
  do loops <- field (nullable as_int) (lit "actualLoopCount") v;
  do init <- field (nullable as_num) (lit "estimatedInitCost") v;
  do cost <- field (nullable as_num) (lit "estimatedCost") v;
  do rows <- field (nullable as_int) (lit "estimatedReturnedRows") v;
  do width <- field (nullable as_int) (lit "estimatedWidth") v;
  Ok {| vn_text := text; vn_title := title; vn_table := table; vn_init_cost := init; vn_cost := cost;
        vn_rows := rows; vn_width := width; vn_time_first := first; vn_time_avg := avg;
        vn_returned := returned; vn_loops := loops |}.
(** A node with its children, which may be null only if [null_children].  [n] bounds the
    depth.  class-transformer for the children of the classes above and of
    OtelTraceSpan.ts:12-13. *)
Fixpoint read_tree {A} (fields : jv -> outcome A) (null_children : bool) (n : nat) (v : jv) : outcome (tree A) :=
  match n with
  | 0 => Panic
  | S n' =>
      do a <- fields v;
      do cs <- field (nullable (as_list (read_tree fields null_children n'))) (lit "children") v;
      match cs with
      | Some l => Ok (Node a l)
      | None => if null_children then Ok (Node a []) else Panic
      end
  end.
(** how deep a value is: the bound for [read_tree]; no lines in /repo *)
Fixpoint depth (v : jv) : nat :=
  match v with
  | JArr l => S (list_max (map depth l))
  | JObj l => S (list_max (map (fun kv => depth (snd kv)) l))
  | _ => 0
  end.
(** MysqlAnalyzeData.ts:5-11, PostgresAnalyzeData.ts:4-11, PostgresExplainData.ts:4-11 *)
Definition read_node (v : jv) : outcome (tree vm_node) := read_tree read_node_fields true (S (depth v)) v.

(** BaseSuggestData.ts:12-15, MysqlSuggestData.ts:13, PostgresSuggestData.ts:14-15, HasuraSuggestData.ts:15-18 *)
Record suggest_page := {
  sp_query : gostring;
  sp_nodes : option (list (tree vm_node));
  sp_summary : gostring;
  sp_gql : gostring * jv;
  sp_targets : option (list page_target);
  sp_options : option (list cmd_option);
  sp_result : option page_result }.
Section Pages.
  (** sql-formatter's format for PostgreSQL; it may throw *)
  Variable format : gostring -> outcome gostring.

  (** BaseSuggestData.ts:17-28 with createIndexTargets (MysqlSuggestData.ts:24-26, PostgresSuggestData.ts:27-29, HasuraSuggestData.ts:39-41) *)
  Definition read_base (v : jv) : outcome (gostring * option (list page_target) * option (list cmd_option) * jv) :=
    do q <- field as_str (lit "query") v;
    do ts <- field (nullable (as_list read_target)) (lit "indexTargets") v;
    do os <- field (nullable (as_list read_option)) (lit "examinationCommandOptions") v;
    do r <- get (lit "examinationResult") v;
    Ok (q, ts, os, r).
  (** MysqlSuggestData.ts:28-32 *)
  Definition mysql_result (v : jv) : outcome (option page_result) :=
    if truthy v then (do r <- read_result v; Ok (Some r)) else Ok None.
  (** PostgresSuggestData.ts:31-45, HasuraSuggestData.ts:43-57: the loop over null is a
      TypeError *)
  Definition pg_result (v : jv) : outcome (option page_result) :=
    if truthy v then (do r <- read_result v; match pr_results r with None => Panic | Some _ => Ok (Some r) end) else Ok None.
  (** MysqlSuggestData.ts:15-22 *)
  Definition new_mysql (v : jv) : outcome suggest_page :=
    do b <- read_base v;
    let '(q, ts, os, rv) := b in
    do r <- mysql_result rv;
    do ns <- field (nullable (as_list read_node)) (lit "analyzeNodes") v;
    Ok {| sp_query := q; sp_nodes := ns; sp_summary := []; sp_gql := ([], JNull);
          sp_targets := ts; sp_options := os; sp_result := r |}.
  (** PostgresSuggestData.ts:17-25 *)
  Definition new_postgres (v : jv) : outcome suggest_page :=
    do b <- read_base v;
    let '(q, ts, os, rv) := b in
    do r <- pg_result rv;
    do ns <- field (nullable (as_list read_node)) (lit "analyzeNodes") v;
    do s <- field as_str (lit "summaryText") v;
    Ok {| sp_query := q; sp_nodes := ns; sp_summary := s; sp_gql := ([], JNull);
          sp_targets := ts; sp_options := os; sp_result := r |}.
  (** HasuraSuggestData.ts:20-37 *)
  Definition new_hasura (h : jv) : outcome suggest_page :=
    do v <- get (lit "postgres") h;
    do b <- read_base v;
    let '(q, ts, os, rv) := b in
    do r <- pg_result rv;
    do q' <- format q;
    do s <- field as_str (lit "summaryText") v;
    do g <- field as_str (lit "gql") v;
    do vs <- get (lit "gqlVariables") v;
    do ns <- field (nullable (as_list read_node)) (lit "analyzeNodes") v;
    Ok {| sp_query := q'; sp_nodes := ns; sp_summary := s; sp_gql := (g, vs);
          sp_targets := ts; sp_options := os; sp_result := r |}.

  (** SuggestData.ts:11-23 *)
  Record suggest_pages := { ss_mysql : option suggest_page; ss_postgres : option suggest_page; ss_hasura : option suggest_page }.
  (** SuggestData.ts:12, 16, 20; DigData.ts:14, 21; gr_param.ts:7, 11: if there is one *)
  Definition if_truthy {A} (f : jv -> outcome A) (v : jv) : outcome (option A) :=
    if truthy v then (do x <- f v; Ok (Some x)) else Ok None.
  (** SuggestData.ts:11-23 *)
  Definition new_suggest (v : jv) : outcome suggest_pages :=
    do m <- field (if_truthy new_mysql) (lit "mysql") v;
    do p <- field (if_truthy new_postgres) (lit "postgres") v;
    do h <- field (if_truthy new_hasura) (lit "hasura") v;
    Ok {| ss_mysql := m; ss_postgres := p; ss_hasura := h |}.

  (** TimeDbLoad.ts:4-13 *)
  Record page_row := { pw_millis : Z; pw_dbs : list (@db_load Q) }.
  (** DbLoadOfSql.ts:1-6 *)
  Definition read_sql_load (v : jv) : outcome load :=
    do s <- field as_str (lit "sql") v;
    do m <- field as_num (lit "loadMax") v;
    do u <- field as_num (lit "loadSum") v;
    do t <- field as_str (lit "tokenizedId") v;
    Ok {| sl_sql := s; sl_max := m; sl_sum := u; sl_tok := t |}.
  (** DbLoad.ts:4-9 *)
  Definition read_db_load (v : jv) : outcome (@db_load Q) :=
    do n <- field as_str (lit "name") v;
    do l <- field (as_list read_sql_load) (lit "sqls") v;
    Ok {| dl_name := n; dl_sqls := l |}.
  (** TimeDbLoad.ts:4-8 *)
  Definition read_row (v : jv) : outcome page_row :=
    do t <- field as_int (lit "timestamp") v;
    do d <- field (as_list read_db_load) (lit "databases") v;
    Ok {| pw_millis := t; pw_dbs := d |}.
  (** OtelTraceSpan.ts:5-13, 17-19 (children.length), OtelCompactedTrace.ts:5-11, JaegerData.ts *)
  Definition read_span_fields (v : jv) : outcome vm_span :=
    do n <- field as_str (lit "name") v;
    do i <- field as_str (lit "spanId") v;
    do s <- field as_int (lit "startTimeMillis") v;
    do e <- field as_int (lit "endTimeMillis") v;
    do c <- field as_str (lit "serviceName") v;
    Ok {| v_name := n; v_id := i; v_start := s; v_end := e; v_service := c |}.
  (** OtelCompactedTrace.ts:5-11 *)
  Definition read_trace (v : jv) : outcome vm_trace :=
    do i <- field as_str (lit "traceId") v;
    do c <- field as_int (lit "sameServiceAccessCount") v;
    do s <- field as_str (lit "timeConsumingServiceName") v;
    do r <- field (fun x => read_tree read_span_fields false (S (depth x)) x) (lit "root") v;
    Ok {| vt_id := i; vt_count := c; vt_service := s; vt_root := r |}.
  (** JaegerData.ts:4-14 *)
  Definition read_jaeger (v : jv) : outcome jaeger_data :=
    do u <- field as_str (lit "uiPath") v;
    do m <- field as_int (lit "slowThresholdMilli") v;
    do n <- field as_int (lit "sameServiceThreshold") v;
    do a <- field (as_list read_trace) (lit "slowTraces") v;
    do b <- field (as_list read_trace) (lit "sameServiceTraces") v;
    Ok {| jd_ui := u; jd_slow_ms := m; jd_same := n; jd_slow := a; jd_same_service := b |}.
  (** PerformanceInsightsData.ts:4-10 *)
  Definition read_pi (v : jv) : outcome (option (list page_row) * option (list page_row)) :=
    do a <- field (nullable (as_list read_row)) (lit "sqlDbLoads") v;
    do b <- field (nullable (as_list read_row)) (lit "tokenizedSqlDbLoads") v;
    Ok (a, b).
  (** DigData.ts:13-24 *)
  Record dig_pages := { dp_pi : option (option (list page_row) * option (list page_row)); dp_jaeger : option jaeger_data }.
  (** DigData.ts:13-24 *)
  Definition new_dig (v : jv) : outcome dig_pages :=
    do p <- field (if_truthy read_pi) (lit "performanceInsights") v;
    do j <- field (if_truthy read_jaeger) (lit "jaeger") v;
    Ok {| dp_pi := p; dp_jaeger := j |}.

  (** stores/gr_param.ts:5-12: the two members but dev *)
  Record gr_param := { gp_suggest : option suggest_pages; gp_dig : option dig_pages }.
  (** stores/gr_param.ts:5-12 *)
  Definition store (v : jv) : outcome gr_param :=
    do s <- field (if_truthy new_suggest) (lit "suggestData") v;
    do d <- field (if_truthy new_dig) (lit "digData") v;
    Ok {| gp_suggest := s; gp_dig := d |}.

  (** App.svelte:11-38, 60-74 and Mermaid.svelte:8-20, 36-38; the data has no dev, which
      is false *)
  Inductive page :=
  | PageSuggest (k : sub_command) (d : suggest_page)
  | PagePi (sqls tokenized : option (list page_row))
  | PagePiEmpty                  (* the page without data *)
  | PageJaeger (d : jaeger_data)
  | PageJaegerEmpty
  | PageNone.
  (** App.svelte:27-37, 61-73 *)
  Definition main_page (g : gr_param) : outcome page :=
    match gp_suggest g with
    | Some s =>
        match ss_mysql s, ss_postgres s, ss_hasura s with
        | Some d, _, _ => Ok (PageSuggest SubMysql d)
        | None, Some d, _ => Ok (PageSuggest SubPostgres d)
        | None, None, Some d => Ok (PageSuggest SubHasura d)
        | None, None, None => Ok PageNone
        end
    | None =>
        match gp_dig g with
        | None => Panic
        | Some d => Ok (match dp_pi d with Some (a, b) => PagePi a b | None => PagePiEmpty end)
        end
    end.
  (** Mermaid.svelte:15, 36-38 *)
  Definition mermaid_page (g : gr_param) : outcome page :=
    match gp_dig g with
    | None => Panic
    | Some d => Ok (match dp_jaeger d with Some j => PageJaeger j | None => PageJaegerEmpty end)
    end.
  (** roots of the two bundles: client/src/main.ts:4-6 and mermaid.ts:4-6 make the component *)
  Definition open_page (b : bundle) (v : jv) : outcome page :=
    do g <- store (evaluated v);
    match b with Main => main_page g | Mermaid => mermaid_page g end.

  (** ** What a suggestion page shows *)

  (** IndexTarget.ts:9-12, 18-22 and PostgresIndexTarget.ts: null has no map *)
  Definition with_columns (f : index_target -> gostring) (t : page_target) : outcome gostring :=
    match pt_columns t with None => Panic | Some c => Ok (f (mk_it (pt_table t) c)) end.
  (** IndexTarget.ts:18-22, PostgresIndexTarget.ts:4-8 *)
  Definition add_sql (k : sub_command) : index_target -> gostring :=
    match k with SubMysql => mysql_add_sql | _ => pg_add_sql end.
  (** ExaminationResultTable.svelte:23-49, ExaminationIndexResult.ts:9-21: time, reduction
      in per cent, columns, SQL.  [None]: the division by zero gives NaN or -Infinity. *)
  Record exam_row := { xr_millis : Z; xr_percent : option Q; xr_index : gostring; xr_sql : gostring }.
  (** ExaminationIndexResult.ts:9-17 *)
  Definition reduction (original t : Z) : option Q :=
    if Z.eqb original 0 then None else Some ((1 - inject_Z t / inject_Z original) * 100)%Q.
  (** ExaminationResultTable.svelte:5-7 *)
  Definition faster (a b : page_index_result) : bool := Z.ltb (pi_millis a) (pi_millis b).
  (** ExaminationResultTable.svelte:32-47 *)
  Definition exam_rows (srt : list page_index_result -> list page_index_result) (k : sub_command) (r : page_result)
    : outcome (list exam_row) :=
    match pr_results r with
    | None => Panic
    | Some l =>
        all_ok (map (fun x =>
          do i <- with_columns target_string (pi_target x);
          do q <- with_columns (add_sql k) (pi_target x);
          Ok {| xr_millis := pi_millis x; xr_percent := reduction (pr_original r) (pi_millis x);
                xr_index := i; xr_sql := q |}) (srt l))
    end.
  (** IndexSuggestion.svelte:15-39; [checked] are the check boxes, all set at first *)
  Definition to_index_target (t : page_target) : outcome index_target :=
    match pt_columns t with None => Panic | Some c => Ok (mk_it (pt_table t) c) end.
  (** IndexSuggestion.svelte:39 *)
  Fixpoint picked {A} (checked : list bool) (l : list A) : list A :=
    match checked, l with
    | b :: bs, x :: l' => if b then x :: picked bs l' else picked bs l'
    | _, _ => []
    end.
  (** IndexSuggestion.svelte:39, 42-60 *)
  Definition suggestion_card (k : sub_command) (checked : list bool) (ts : list page_target) (os : option (list cmd_option))
    : outcome (list gostring * gostring) :=
    do items <- all_ok (map (with_columns target_string) ts);
    do chosen <- all_ok (map to_index_target (picked checked ts));
    match os with
    | None => Panic
    | Some o => Ok (items, build_command_text k chosen o)
    end.

  (** SuggestMysqlPage.svelte:14-60, SuggestPostgresPage.svelte, SuggestHasuraPage.svelte:
      the cards from top to bottom.  Text and timeline of the plan are those of
      PlanView.v. *)
  Inductive card :=
  | CardGql (query : gostring) (variables : jv)
  | CardSql (text : gostring) (open : bool)
  | CardPlan (nodes : list (tree vm_node)) (trailing : gostring)
  | CardTimeline (nodes : list (tree vm_node))
  | CardSuggestion (open : bool) (items : list gostring) (command : gostring)
  | CardExamination (original : Z) (rows : list exam_row).
  (** Svelte: an if block around a card; no lines in /repo *)
  Definition show_if {A} (o : option A) (f : A -> outcome (list card)) : outcome (list card) :=
    match o with None => Ok [] | Some x => f x end.
  (** SuggestMysqlPage.svelte:14-60, SuggestPostgresPage.svelte:14-62, SuggestHasuraPage.svelte:20-77 *)
  Definition cards (srt : list page_index_result -> list page_index_result) (checked : list bool)
      (k : sub_command) (d : suggest_page) : outcome (list card) :=
    let gql := match k with
               | SubHasura => if seqb (fst (sp_gql d)) [] then [] else [CardGql (fst (sp_gql d)) (snd (sp_gql d))]
               | _ => []
               end in
    let sql := if seqb (sp_query d) [] then []
               else [CardSql (sp_query d) (match k with SubHasura => false | _ => true end)] in
    let trailing := match k with SubMysql => [] | _ => sp_summary d end in
    do plan <- show_if (sp_nodes d) (fun ns => Ok [CardPlan ns trailing; CardTimeline ns]);
    do sugg <- show_if (sp_targets d) (fun ts =>
      do c <- suggestion_card k checked ts (sp_options d);
      Ok [CardSuggestion (match sp_result d with None => true | Some _ => false end) (fst c) (snd c)]);
    do exam <- show_if (sp_result d) (fun r =>
      do rows <- exam_rows srt k r; Ok [CardExamination (pr_original r) rows]);
    Ok (gql ++ sql ++ plan ++ sugg ++ exam).
  (** App.svelte:61-68 *)
  Definition shown (srt : list page_index_result -> list page_index_result) (checked : list bool) (p : page) : outcome (list card) :=
    match p with PageSuggest k d => cards srt checked k d | _ => Ok [] end.

  (** The report of a command as the browser opens it: html_builder.go:16-65, App.svelte:40-74 *)
  Definition browse (srt : list page_index_result -> list page_index_result) (checked : list bool) (b : build_option)
    : outcome (list card) :=
    do p <- open_page (bundle_of b) (gr_map b); shown srt checked p.
End Pages.

(** ** pages/dig/jaeger/TracesTable.svelte:10-12 *)
Definition longer (a b : trace_tree) : bool := Z.ltb (tt_duration b) (tt_duration a).
(** TracesTable.svelte:10-12 *)
Definition traces_table (srt : list trace_tree -> list trace_tree) (l : list vm_trace) : list trace_tree :=
  srt (map to_trace_tree l).

(** TracesTable.svelte:55-60, the row's link: a path against an http(s) URL keeps scheme
    and authority of the URL.  [None]: another URL, where the constructor may throw.
    Simplifications: no lower-casing of the host, no removal of a default port; the id is
    taken to need no escaping, as ids of Jaeger in hexadecimal do not. *)
Fixpoint url_authority (s : gostring) : gostring :=
  match s with
  | [] => []
  | c :: s' => if (N.eqb c 47 || N.eqb c 92 || N.eqb c 63 || N.eqb c 35)%bool then [] else c :: url_authority s'
  end.
(** the rest of a text behind a prefix; no lines in /repo *)
Fixpoint after_prefix (p s : gostring) : option gostring :=
  match p, s with
  | [], _ => Some s
  | c :: p', d :: s' => if N.eqb c d then after_prefix p' s' else None
  | _, [] => None
  end.
(** TracesTable.svelte:55-60 *)
Definition trace_link (ui id : gostring) : option gostring :=
  let go scheme := match after_prefix scheme ui with
                   | Some r => match url_authority r with
                               | [] => None
                               | a => Some (scheme ++ a ++ lit "/trace/" ++ id)
                               end
                   | None => None
                   end in
  match go (lit "http://") with Some u => Some u | None => go (lit "https://") end.
