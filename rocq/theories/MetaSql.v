(** The metadata queries of the MySQL and PostgreSQL commands and the reading of their
    rows.  sqlx (In, Rebind) is restated; the server is an arbitrary function from the
    text of a query and its arguments to rows or an error. *)
From Coq Require Import String List NArith ZArith Bool Lia Arith.
From Verif Require Import Base Dec IndexText IndexBuild TableFields Existing SqlServer.
Import ListNotations.

(** infra/mysql/column_info.go:3-14 *)
Definition mysql_column_template : gostring := lit "
SELECT
	COLUMN_NAME,
	COLUMN_KEY,
	TABLE_NAME 
FROM
	information_schema.columns
WHERE
  	TABLE_SCHEMA = ? AND
  	TABLE_NAME IN (?)
ORDER BY TABLE_NAME, ORDINAL_POSITION
".
(** infra/mysql/index_info.go:3-15 *)
Definition mysql_index_template : gostring := lit "
SELECT
	TABLE_NAME,
	INDEX_NAME,
	COLUMN_NAME
FROM
	information_schema.STATISTICS
WHERE
	TABLE_SCHEMA = ? AND
	TABLE_NAME IN (?)
ORDER BY
	TABLE_NAME, INDEX_NAME, SEQ_IN_INDEX
".
(** infra/postgres/column_info.go:3-21 *)
Definition pg_column_template : gostring := lit "
SELECT
	pg_class.relname AS table_name,
	pg_attribute.attname AS column_name,
	COALESCE(pg_index.indisprimary, FALSE) AS is_pk
FROM
	pg_class
	INNER JOIN pg_attribute ON pg_attribute.attrelid = pg_class.oid
	INNER JOIN pg_namespace ON pg_class.relnamespace = pg_namespace.oid
	LEFT OUTER JOIN pg_index ON pg_class.oid = pg_index.indrelid AND pg_attribute.attnum = ANY(pg_index.indkey)
WHERE
	pg_namespace.nspname = ? AND
	pg_class.relname IN (?) AND
	pg_class.relkind = 'r' AND
	pg_attribute.attnum >= 0
ORDER BY
	pg_class.relname,
	pg_attribute.attnum;
".
(** infra/postgres/index_info.go:8-27 *)
Definition pg_index_template : gostring := lit "
SELECT 
	i.relname AS index_name,
	t.relname AS table_name,
	ARRAY(
		SELECT PG_GET_INDEXDEF(pg_index.indexrelid, k + 1, TRUE)
		FROM GENERATE_SUBSCRIPTS(pg_index.indkey, 1) AS k
		ORDER BY k
	) AS column_names
FROM pg_index
	INNER JOIN pg_class AS i ON pg_index.indexrelid = i.oid
	INNER JOIN pg_class AS t ON pg_index.indrelid = t.oid
	INNER JOIN pg_namespace ON i.relnamespace = pg_namespace.oid
WHERE
	pg_namespace.nspname = ? AND
	t.relname IN (?)
ORDER BY
	t.relname,
	i.relname
".

(** sqlx v1.3 bind.go In: a list for a mark becomes as many marks; lists may not be
    empty; marks and arguments have to be as many. *)
Inductive bind := One (s : gostring) | Many (l : list gostring).
(** sqlx; no lines in /repo, called at infra/mysql/db.go:62,77, infra/postgres/db.go:52,68 *)
Definition bound (b : bind) : list gostring := match b with One s => [s] | Many l => l end.
(** sqlx; no lines in /repo, called at infra/mysql/db.go:62,77, infra/postgres/db.go:52,68 *)
Definition is_empty_list (b : bind) : bool := match b with Many [] => true | _ => false end.
(** sqlx; no lines in /repo, called at infra/mysql/db.go:62,77, infra/postgres/db.go:52,68 *)
Fixpoint expand_marks (q : gostring) (args : list bind) : outcome gostring :=
  match q with
  | [] => match args with [] => Ok [] | _ => Err (lit "number of bindVars less than number arguments") end
  | c :: q' =>
      if N.eqb c 63 then
        match args with
        | [] => Err (lit "number of bindVars exceeds arguments")
        | a :: args' => do r <- expand_marks q' args'; Ok (join (lit ", ") (map (fun _ => lit "?") (bound a)) ++ r)
        end
      else do r <- expand_marks q' args; Ok (c :: r)
  end.
(** sqlx; no lines in /repo, called at infra/mysql/db.go:62,77, infra/postgres/db.go:52,68 *)
Definition sqlx_in (q : gostring) (args : list bind) : outcome (gostring * list gostring) :=
  if existsb is_empty_list args then Err empty_in_message
  else do r <- expand_marks q args; Ok (r, flat_map bound args).
(** sqlx v1.3 bind.go Rebind for $1, $2, ... *)
Fixpoint rebind (n : N) (q : gostring) : gostring :=
  match q with
  | [] => []
  | c :: q' => if N.eqb c 63 then 36%N :: dec_of_N n ++ rebind (n + 1) q' else c :: rebind n q'
  end.

(** A request: the text and its arguments *)
(** the arguments of Select: infra/mysql/db.go:68, infra/postgres/db.go:59 *)
Definition request := (gostring * list gostring)%type.
(** infra/mysql/db.go:64,79, infra/postgres/db.go:54,70 *)
Definition in_message : gostring := lit "failed to build query to get table schema: ".
(** infra/mysql/db.go:61-65, 76-80 *)
Definition mysql_request (template db_name : gostring) (tables : list gostring) : outcome request :=
  match sqlx_in template [One db_name; Many tables] with
  | Err m => Err (in_message ++ m)
  | r => r
  end.
(** infra/postgres/db.go:51-56, 67-72 *)
Definition pg_request (template schema : gostring) (tables : list gostring) : outcome request :=
  do r <- mysql_request template schema tables;
  Ok (rebind 1 (fst r), snd r).

(** sqlx Select: the columns by name, errors of the query and of scanning a row *)
(** infra/mysql/db.go:68, infra/postgres/db.go:59 *)
Definition select_server := request -> outcome (list row).
(** sqlx and database/sql; no lines in /repo *)
Fixpoint cell_of (name : gostring) (r : row) : outcome value :=
  match r with
  | [] => Err (lit "missing destination name " ++ name)
  | (n, c) :: r' => if seqb n name then Ok c else cell_of name r'
  end.
(** sqlx scanAll and database/sql Rows.Scan *)
(** sqlx and database/sql; no lines in /repo *)
Definition scan_message (name : gostring) : gostring := lit "sql: Scan error on column " ++ name.
(** database/sql convertAssign into a string, a bool, a pq.StringArray.  Simplification:
    only the kinds of values these queries answer. *)
(** sqlx and database/sql; no lines in /repo *)
Definition scan_text (name : gostring) (r : row) : outcome gostring :=
  do c <- cell_of name r;
  match c with VText s => Ok s | _ => Err (scan_message name) end.
(** sqlx and database/sql; no lines in /repo *)
Definition scan_bool (name : gostring) (r : row) : outcome bool :=
  do c <- cell_of name r;
  match c with VBool b => Ok b | _ => Err (scan_message name) end.
(** sqlx and database/sql; no lines in /repo *)
Definition scan_texts (name : gostring) (r : row) : outcome (list gostring) :=
  do c <- cell_of name r;
  match c with VTexts l => Ok l | VNull => Ok [] | _ => Err (scan_message name) end.
(** sqlx and database/sql; no lines in /repo *)
Fixpoint scan_all {A} (f : row -> outcome A) (rows : list row) : outcome (list A) :=
  match rows with
  | [] => Ok []
  | r :: rows' => do x <- f r; do l <- scan_all f rows'; Ok (x :: l)
  end.
(** infra/mysql/db.go:67-73, infra/postgres/db.go:58-64 *)
Definition selected {A} (server : select_server) (message : gostring) (rq : request)
    (f : row -> outcome A) : outcome (list A) :=
  match (do rows <- server rq; scan_all f rows) with
  | Err m => Err (message ++ m)
  | r => r
  end.
(** infra/mysql/db.go:70, infra/postgres/db.go:61 *)
Definition column_message (tail : gostring) : gostring := lit "failed to execute query to get table " ++ tail ++ lit ": ".
(** infra/mysql/db.go:85, infra/postgres/db.go:77 *)
Definition index_message : gostring := lit "failed to execute query to get indexes: ".

(** infra/mysql/column_info.go:16-20, db.go:61-74 GetTableColumns,
    parser/collect_table_schemas.go:14-19 *)
Definition mysql_scan_column (r : row) : outcome (gostring * gostring * bool) :=
  do c <- scan_text (lit "COLUMN_NAME") r;
  do k <- scan_text (lit "COLUMN_KEY") r;
  do t <- scan_text (lit "TABLE_NAME") r;
  Ok (mysql_col_row t c k).
(** infra/mysql/db.go:61-74 *)
Definition mysql_columns (server : select_server) (db_name : gostring) (tables : list gostring)
  : outcome (list (gostring * gostring * bool)) :=
  do rq <- mysql_request mysql_column_template db_name tables;
  selected server (column_message (lit "schema")) rq mysql_scan_column.
(** infra/mysql/index_info.go:22-26, db.go:76-89 GetIndexes *)
Definition mysql_scan_index (r : row) : outcome flat_row :=
  do t <- scan_text (lit "TABLE_NAME") r;
  do i <- scan_text (lit "INDEX_NAME") r;
  do c <- scan_text (lit "COLUMN_NAME") r;
  Ok (mk_row t i c).
(** infra/mysql/db.go:76-89 *)
Definition mysql_indexes (server : select_server) (db_name : gostring) (tables : list gostring) : outcome (list flat_row) :=
  do rq <- mysql_request mysql_index_template db_name tables;
  selected server index_message rq mysql_scan_index.
(** infra/postgres/column_info.go:23-27, db.go:51-65 *)
Definition pg_scan_column (r : row) : outcome (gostring * gostring * bool) :=
  do t <- scan_text (lit "table_name") r;
  do c <- scan_text (lit "column_name") r;
  do k <- scan_bool (lit "is_pk") r;
  Ok (t, c, k).
(** infra/postgres/db.go:51-65 *)
Definition pg_columns (server : select_server) (schema : gostring) (tables : list gostring)
  : outcome (list (gostring * gostring * bool)) :=
  do rq <- pg_request pg_column_template schema tables;
  selected server (column_message (lit "column")) rq pg_scan_column.
(** infra/postgres/index_info.go:34-47, db.go:67-81 *)
Definition pg_scan_index (r : row) : outcome index_target :=
  do _ <- scan_text (lit "index_name") r;
  do t <- scan_text (lit "table_name") r;
  do c <- scan_texts (lit "column_names") r;
  Ok (mk_it t c).
(** infra/postgres/db.go:67-81 *)
Definition pg_indexes (server : select_server) (schema : gostring) (tables : list gostring) : outcome (list index_target) :=
  do rq <- pg_request pg_index_template schema tables;
  selected server index_message rq pg_scan_index.
