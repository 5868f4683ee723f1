(** Hasura: metadata queries over its run_sql API, reading the answers, and the
    suggestions made from them. *)
From Coq Require Import String List NArith Bool Lia Arith.
From Verif Require Import Base IndexText IndexBuild TableFields Existing MysqlCollect PgAst PgCollect.
Import ListNotations.

(** infra/hasura/column_info.go:11-29 *)
Definition column_template : gostring := lit "
SELECT
	pg_class.relname AS table_name,
	pg_attribute.attname AS column_name,
	COALESCE(pg_index.indisprimary, FALSE) AS is_pk
FROM
	pg_class
	INNER JOIN pg_attribute ON pg_attribute.attrelid = pg_class.oid
	INNER JOIN pg_namespace ON pg_class.relnamespace = pg_namespace.oid
	LEFT OUTER JOIN pg_index ON pg_class.oid = pg_index.indrelid AND pg_attribute.attnum = ANY(pg_index.indkey)
WHERE
	pg_namespace.nspname = ? AND
	pg_class.relname IN (?) AND
	pg_class.relkind = 'r' AND
	pg_attribute.attnum >= 0
ORDER BY
	pg_class.relname,
	pg_attribute.attnum
".
(** infra/hasura/index_info.go:11-29 *)
Definition index_template : gostring := lit "
SELECT 
	t.relname AS table_name,
	ARRAY(
		SELECT PG_GET_INDEXDEF(pg_index.indexrelid, k + 1, TRUE)
		FROM GENERATE_SUBSCRIPTS(pg_index.indkey, 1) AS k
		ORDER BY k
	) AS column_names
FROM pg_index
	INNER JOIN pg_class AS i ON pg_index.indexrelid = i.oid
	INNER JOIN pg_class AS t ON pg_index.indrelid = t.oid
	INNER JOIN pg_namespace ON i.relnamespace = pg_namespace.oid
WHERE
	pg_namespace.nspname = ? AND
	t.relname IN (?)
ORDER BY
	t.relname,
	i.relname
".

(** column_info.go:37 wordOnlyReg, [\A\w+\z] *)
Definition word_only (s : gostring) : bool := negb (match s with [] => true | _ => false end) && forallb is_word s.
(** strings.Replace(s, "?", new, 1) *)
Fixpoint replace_mark (new s : gostring) : gostring :=
  match s with
  | [] => []
  | c :: s' => if N.eqb c 63 then new ++ s' else c :: replace_mark new s'
  end.
(** fmt.Sprintf("'%s'", v) *)
(** column_info.go:48-49, index_info.go:45-46 *)
Definition quote (s : gostring) : gostring := 39%N :: s ++ [39%N].
(** column_info.go:43-47, index_info.go:40-44 *)
Fixpoint check_tables (tables : list gostring) : outcome unit :=
  match tables with
  | [] => Ok tt
  | t :: tables' =>
      if word_only t then check_tables tables'
      else Err (lit "table name can contains only a-z or _: " ++ t)
  end.
(** column_info.go:39-53 buildColumnFetchQuery and index_info.go:36-50
    buildIndexFetchQuery, which differ in the template only *)
Definition build_query (template schema : gostring) (tables : list gostring) : outcome gostring :=
  if word_only schema then
    do _ <- check_tables tables;
    Ok (replace_mark (join (lit ",") (map quote tables)) (replace_mark (quote schema) template))
  else Err (lit "schema name can contains only a-z or _: " ++ schema).

(** infra/hasura/run_sql_args.go:3-9; Source, Cascade and CheckMetadataConsistency
    are never set *)
Record run_sql := { rs_sql : gostring; rs_read_only : option bool }.
(** client.go:66-81 RunSQL: the rows of the answer, or an error of the request, of a
    status other than 200 or of decoding *)
Definition sql_server := run_sql -> outcome (list (list gostring)).

(** column_info.go:55-76: an index out of range panics *)
Definition parse_column_row (r : list gostring) : outcome (gostring * gostring * bool) :=
  match nth_error r 2 with
  | None => Panic
  | Some pk =>
      match nth_error r 0, nth_error r 1 with
      | Some t, Some c => Ok (t, c, seqb pk (lit "t"))
      | _, _ => Panic
      end
  end.
(** column_info.go:57-73 *)
Fixpoint parse_column_rows (rows : list (list gostring)) : outcome (list (gostring * gostring * bool)) :=
  match rows with
  | [] => Ok []
  | r :: rows' => do x <- parse_column_row r; do l <- parse_column_rows rows'; Ok (x :: l)
  end.
(** column_info.go:55-76 *)
Definition parse_columns (rows : list (list gostring)) : outcome (list (gostring * gostring * bool)) :=
  match rows with [] => Ok [] | _ :: rows' => parse_column_rows rows' end.
(** index_info.go:52-73; [scan] is pq.StringArray.Scan *)
Definition array_message : gostring :=
  lit "unexpected result from hasura to fetch indexes: not array of string for column names: ".
(** index_info.go:60-69 *)
Definition parse_index_row (scan : gostring -> outcome (list gostring)) (r : list gostring) : outcome index_target :=
  match nth_error r 1 with
  | None => Panic
  | Some a =>
      match scan a with
      | Err m => Err (array_message ++ m)
      | Panic => Panic
      | Ok cols => match nth_error r 0 with Some t => Ok (mk_it t cols) | None => Panic end
      end
  end.
(** index_info.go:54-70 *)
Fixpoint parse_index_rows (scan : gostring -> outcome (list gostring)) (rows : list (list gostring)) : outcome (list index_target) :=
  match rows with
  | [] => Ok []
  | r :: rows' => do x <- parse_index_row scan r; do l <- parse_index_rows scan rows'; Ok (x :: l)
  end.
(** index_info.go:52-73 *)
Definition parse_indexes (scan : gostring -> outcome (list gostring)) (rows : list (list gostring)) : outcome (list index_target) :=
  match rows with [] => Ok [] | _ :: rows' => parse_index_rows scan rows' end.

(** client.go:83-99 GetTableColumns *)
Definition get_table_columns (server : sql_server) (schema : gostring) (tables : list gostring)
  : outcome (list (gostring * gostring * bool)) :=
  do q <- build_query column_template schema tables;
  do rows <- server {| rs_sql := q; rs_read_only := Some true |};
  parse_columns rows.
(** client.go:101-117 GetIndexes, hservice/index_getter.go:17-26 *)
Definition get_indexes (server : sql_server) (scan : gostring -> outcome (list gostring)) (schema : gostring) (tables : list gostring)
  : outcome (list index_target) :=
  do q <- build_query index_template schema tables;
  do rows <- server {| rs_sql := q; rs_read_only := Some true |};
  parse_indexes scan rows.

(** hservice/parser/collect_table_schemas.go:11-33 *)
Definition hasura_table_schemas (server : sql_server) (schema : gostring) (tables : list gostring) : outcome (list table_schema) :=
  do cols <- get_table_columns server schema tables;
  check_schemas tables (create_table_schemas tables cols).
(** hservice/index_suggester.go:21-48, hservice/parser/index.go:11-32; [parsed] is what
    pservice.Parse's parser returns for the SQL *)
Definition hasura_suggest (norm : gostring -> gostring) (fold : rune -> rune) (set_ord : list gostring -> list gostring)
    (ord : order gostring) (ordf : order ifield) (srt : list index_target_table -> list index_target_table)
    (scan : gostring -> outcome (list gostring)) (server : sql_server)
    (parsed : outcome (list node)) : outcome (list index_target) :=
  do stmts <- parsed;
  match stmts with
  | [] => Panic
  | _ :: _ :: _ => Err (lit "not supporting query having multiple statements")
  | [root] =>
      do r <- collect_table_names norm set_ord root;
      do tables <- MysqlCollect.first_error r;
      do schemas <- hasura_table_schemas server (lit "public") tables;
      do r <- collect_scopes norm (lit "public") root;
      do scopes <- MysqlCollect.first_error r;
      do its <- build ord ordf srt schemas scopes;
      let deref p := nth p its (mk_it [] []) in
      do kept <- remove_existing fold deref (get_indexes server scan (lit "public")) (seq 0 (length its));
      Ok (map deref kept)
  end.
