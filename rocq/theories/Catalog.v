(** The catalogs the metadata queries read, as relations of the server of SqlServer.v:
    pg_class, pg_attribute, pg_index and pg_namespace of PostgreSQL, COLUMNS and
    STATISTICS of MySQL's information_schema.  Restated from the manuals, not part of the
    repository; only the columns the queries name, and those the theorems talk about.
    None of the definitions in this file has lines in /repo of its own. *)
From Coq Require Import String List NArith ZArith Bool Lia Arith.
From Verif Require Import Base IndexText IndexBuild Hasura PgArray SqlServer.
Import ListNotations.

(** * PostgreSQL *)
Record pg_class := mk_class { c_oid : Z; c_name : gostring; c_ns : Z; c_kind : gostring }.
(** a dropped column stays, under another name *)
Record pg_attribute := mk_attr { a_rel : Z; a_name : gostring; a_num : Z; a_dropped : bool }.
(** [x_key]: the numbers of the columns, 0 for an expression, keys first and then what
    INCLUDE names; [x_keys]: how many are keys; [x_exprs]: the texts of the expressions;
    [x_where]: it has a predicate *)
Record pg_index := mk_index { x_id : Z; x_rel : Z; x_key : list Z; x_primary : bool; x_keys : nat; x_exprs : list gostring; x_where : bool }.
Record pg_namespace := mk_ns { n_oid : Z; n_name : gostring }.
Record pg_catalog := mk_pg {
  classes : list pg_class; attributes : list pg_attribute; indexes : list pg_index; namespaces : list pg_namespace }.

Definition class_row (c : pg_class) : row :=
  [(lit "oid", VInt (c_oid c)); (lit "relname", VText (c_name c)); (lit "relnamespace", VInt (c_ns c)); (lit "relkind", VText (c_kind c))].
Definition attribute_row (a : pg_attribute) : row :=
  [(lit "attrelid", VInt (a_rel a)); (lit "attname", VText (a_name a)); (lit "attnum", VInt (a_num a)); (lit "attisdropped", VBool (a_dropped a))].
Definition index_row (x : pg_index) : row :=
  [(lit "indexrelid", VInt (x_id x)); (lit "indrelid", VInt (x_rel x)); (lit "indkey", VInts (x_key x)); (lit "indisprimary", VBool (x_primary x));
   (lit "indnkeyatts", VInt (Z.of_nat (x_keys x)))].
Definition namespace_row (n : pg_namespace) : row := [(lit "oid", VInt (n_oid n)); (lit "nspname", VText (n_name n))].

(** quote_identifier: as it is when all in small letters, digits and underscores, not
    starting with a digit and no keyword; else between double quotes, those inside doubled *)
Definition small (c : rune) : bool := is_lower c || N.eqb c 95.
Definition safe_ident (reserved : gostring -> bool) (s : gostring) : bool :=
  match s with
  | [] => false
  | c :: _ => small c && forallb (fun c => small c || is_digit c) s && negb (reserved s)
  end.
Fixpoint double_quotes (s : gostring) : gostring :=
  match s with [] => [] | c :: s' => if N.eqb c 34 then 34%N :: 34%N :: double_quotes s' else c :: double_quotes s' end.
Definition quote_ident (reserved : gostring -> bool) (s : gostring) : gostring :=
  if safe_ident reserved s then s else 34%N :: double_quotes s ++ [34%N].
(** pg_get_indexdef of one part *)
Fixpoint index_parts (name : Z -> gostring) (keys : list Z) (exprs : list gostring) : list gostring :=
  match keys with
  | [] => []
  | k :: keys' =>
      if Z.eqb k 0 then match exprs with e :: exprs' => e :: index_parts name keys' exprs' | [] => [] :: index_parts name keys' [] end
      else name k :: index_parts name keys' exprs
  end.
Definition attribute_name (cat : pg_catalog) (rel num : Z) : gostring :=
  match find (fun a => Z.eqb (a_rel a) rel && Z.eqb (a_num a) num) (attributes cat) with Some a => a_name a | None => [] end.
Definition index_texts (reserved : gostring -> bool) (cat : pg_catalog) (x : pg_index) : list gostring :=
  index_parts (fun k => quote_ident reserved (attribute_name cat (x_rel x) k)) (x_key x) (x_exprs x).
Definition pg_get_indexdef (reserved : gostring -> bool) (cat : pg_catalog) (id : Z) (k : N) : gostring :=
  match find (fun x => Z.eqb (x_id x) id) (indexes cat) with
  | Some x => nth (N.to_nat k - 1) (index_texts reserved cat x) []
  | None => []
  end.
Definition pg_database (reserved : gostring -> bool) (coll : gostring -> gostring -> comparison) (cat : pg_catalog) : database :=
  {| d_rel := fun t =>
       if seqb t (lit "pg_class") then Some (map class_row (classes cat))
       else if seqb t (lit "pg_attribute") then Some (map attribute_row (attributes cat))
       else if seqb t (lit "pg_index") then Some (map index_row (indexes cat))
       else if seqb t (lit "pg_namespace") then Some (map namespace_row (namespaces cat))
       else None;
     d_coll := coll;
     d_indexdef := pg_get_indexdef reserved cat |}.

(** * MySQL *)
(** information_schema.COLUMNS, which lists the columns of tables and of views *)
Record my_column := mk_mc { mc_schema : gostring; mc_table : gostring; mc_name : gostring; mc_key : gostring; mc_pos : Z; mc_view : bool }.
(** information_schema.STATISTICS: the column is NULL for a functional key part;
    [ms_prefix]: only so many characters are indexed *)
Record my_stat := mk_ms { ms_schema : gostring; ms_table : gostring; ms_index : gostring; ms_seq : Z; ms_col : option gostring; ms_prefix : option Z }.
Record my_catalog := mk_my { my_columns : list my_column; my_stats : list my_stat }.
Definition text_or_null (o : option gostring) : value := match o with Some s => VText s | None => VNull end.
Definition column_row (c : my_column) : row :=
  [(lit "table_schema", VText (mc_schema c)); (lit "table_name", VText (mc_table c)); (lit "column_name", VText (mc_name c));
   (lit "column_key", VText (mc_key c)); (lit "ordinal_position", VInt (mc_pos c))].
Definition stat_row (s : my_stat) : row :=
  [(lit "table_schema", VText (ms_schema s)); (lit "table_name", VText (ms_table s)); (lit "index_name", VText (ms_index s));
   (lit "seq_in_index", VInt (ms_seq s)); (lit "column_name", text_or_null (ms_col s));
   (lit "sub_part", match ms_prefix s with Some n => VInt n | None => VNull end)].
Definition my_database (coll : gostring -> gostring -> comparison) (cat : my_catalog) : database :=
  {| d_rel := fun t =>
       if seqb t (lit "information_schema.columns") then Some (map column_row (my_columns cat))
       else if seqb t (lit "information_schema.statistics") then Some (map stat_row (my_stats cat))
       else None;
     d_coll := coll;
     d_indexdef := fun _ _ => [] |}.

(** * PostgreSQL behind Hasura's run_sql *)
(** The cells of an answer come as texts, below a row of titles.  Simplification: no query
    here asks for integers or can answer NULL. *)
Definition cell_text (v : value) : gostring :=
  match v with
  | VText s => s
  | VBool b => if b then lit "t" else lit "f"
  | VTexts l => array_out l
  | VNull => lit "NULL"
  | VInt _ | VInts _ => []
  end.
Definition hasura_answers_from (d : database) (server : sql_server) : Prop :=
  forall rq rows q, server rq = Ok rows -> parse_sql (rs_sql rq) = Some q ->
    exists ans titles, answers d [] q ans /\ rows = titles :: map (map (fun c => cell_text (snd c))) ans.
