(** Model of the parts around the suggestion builder: removing candidates that
    exist already, grouping the index rows of MySQL, assembling table schemas. *)
From Coq Require Import String List NArith Bool Lia Arith.
From Verif Require Import Base IndexText IndexBuild TableFields.
Import ListNotations.

(** samber/lo Uniq: first occurrence of every value, in order. *)
(** samber/lo; no lines in /repo, used at existing_index_remover.go:27-30,43 *)
Fixpoint uniq_go {A} (eqb : A -> A -> bool) (seen : list A) (l : list A) : list A :=
  match l with
  | [] => []
  | x :: l' => if existsb (eqb x) seen then uniq_go eqb seen l' else x :: uniq_go eqb (x :: seen) l'
  end.
(** samber/lo; no lines in /repo, used at existing_index_remover.go:27-30,43 *)
Definition uniq {A} (eqb : A -> A -> bool) (l : list A) : list A := uniq_go eqb [] l.

(** samber/lo GroupBy on the table name. *)
(** samber/lo; no lines in /repo, used at existing_index_remover.go:27-30,43 *)
Definition group_by_table (l : list index_target) : smap (list index_target) :=
  fold_left (fun m i => mset m (it_table i) (match mget m (it_table i) with Some g => g ++ [i] | None => [i] end)) l [].

Section Remover.
  Context (fold : rune -> rune).

  (** existing_index_remover.go:42-56 removeMatchedIndexTargets; candidates are
      pointers, [deref] gives the value behind one. *)
  Definition remove_matched (deref : nat -> index_target) (infos : list index_target) (its : list nat) : list nat :=
    let groups := group_by_table infos in
    filter (fun p => match mget groups (it_table (deref p)) with
                     | Some idxes => negb (existsb (fun id => has_same_idx_columns fold (deref p) id) idxes)
                     | None => true
                     end) its.
  (** existing_index_remover.go:26-40 Remove; [get_indexes] is the IndexGetter. *)
  Definition remove_existing (deref : nat -> index_target) (get_indexes : list gostring -> outcome (list index_target))
      (its : list nat) : outcome (list nat) :=
    let ptrs := uniq Nat.eqb its in
    let names := uniq seqb (map (fun p => it_table (deref p)) ptrs) in
    do infos <- get_indexes names;
    Ok (remove_matched deref infos ptrs).
End Remover.

(** infra/mysql/index_info.go:22-26 *)
Record flat_row := mk_row { fr_table : gostring; fr_index : gostring; fr_column : gostring }.
(** index_info.go:35-36 [infos[len(infos)-1]]: panics on an empty slice *)
Fixpoint append_last (infos : list index_target) (c : gostring) : outcome (list index_target) :=
  match infos with
  | [] => Panic
  | [i] => Ok [mk_it (it_table i) (it_cols i ++ [c])]
  | i :: infos' => do r <- append_last infos' c; Ok (i :: r)
  end.
(** infra/mysql/index_info.go:33-46, with the conversion to IndexTarget of
    mservice/index_getter.go:17-26 (same table, same columns) *)
Fixpoint to_index_info_from (last_t last_i : gostring) (infos : list index_target) (rows : list flat_row)
    : outcome (list index_target) :=
  match rows with
  | [] => Ok infos
  | r :: rows' =>
      do infos' <- (if (seqb last_t (fr_table r) && seqb last_i (fr_index r))%bool
                    then append_last infos (fr_column r)
                    else Ok (infos ++ [mk_it (fr_table r) [fr_column r]]));
      to_index_info_from (fr_table r) (fr_index r) infos' rows'
  end.
(** infra/mysql/index_info.go:28-46 *)
Definition to_index_info (rows : list flat_row) : outcome (list index_target) :=
  to_index_info_from [] [] [] rows.

(** sqlx.In refuses an empty list (sqlx is not part of the repository). *)
(** sqlx; no lines in /repo *)
Definition empty_in_message : gostring := lit "empty slice passed to 'in' query".
(** infra/mysql/db.go:76-89 GetIndexes (the SELECT itself is [select]);
    mservice/index_getter.go:17-26 *)
Definition mysql_get_indexes (select : list gostring -> outcome (list flat_row)) (tables : list gostring)
    : outcome (list index_target) :=
  match tables with
  | [] => Err (lit "failed to build query to get table schema: " ++ empty_in_message)
  | _ => do rows <- select tables; to_index_info rows
  end.
(** infra/postgres/db.go:67-81 GetIndexes, index_info.go:40-47, pservice/index_getter.go:17-26:
    rows already carry the column list *)
Definition pg_get_indexes (select : list gostring -> outcome (list index_target)) (tables : list gostring)
    : outcome (list index_target) :=
  match tables with
  | [] => Err (lit "failed to build query to get table schema: " ++ empty_in_message)
  | _ => select tables
  end.

(** A row about a column: table, column, primary key?  (the function [f] of
    CreateTableSchemas applied to the row) *)
Notation col_row := (list N * list N * bool)%type (only parsing).
(** table_schema.go:15-35: the map built by the loop *)
Definition add_col (m : smap table_schema) (r : col_row) : smap table_schema :=
  let '(t, c, pk) := r in
  let ts := match mget m t with Some ts => ts | None => mk_ts t [] [] end in
  mset m t (mk_ts (ts_name ts) (ts_cols ts ++ [c]) (if pk then ts_pks ts ++ [c] else ts_pks ts)).
(** table_schema.go:14-47 CreateTableSchemas (None = nil pointer) *)
Definition create_table_schemas (tables : list gostring) (rows : list col_row) : list (option table_schema) :=
  let m := fold_left add_col rows [] in
  map (fun t => mget m t) tables.
(** collect_table_schemas.go:21-25 of all three parsers *)
Definition view_message (t : gostring) : gostring :=
  lib_error (lit "unknown table found. perhaps using VIEW? not supporting: " ++ t).
(** collect_table_schemas.go:21-25 *)
Fixpoint check_schemas (tables : list gostring) (schemas : list (option table_schema)) : outcome (list table_schema) :=
  match tables, schemas with
  | t :: tables', s :: schemas' =>
      match s with
      | None => Err (view_message t)
      | Some ts => do rest <- check_schemas tables' schemas'; Ok (ts :: rest)
      end
  | _, _ => Ok []
  end.
(** mservice/parser/collect_table_schemas.go:11-33 (postgres: same with the rows
    of infra/postgres); [select] answers GetTableColumns with table, column, key *)
Definition collect_table_schemas (select : list gostring -> outcome (list (list N * list N * bool)))
    (tables : list gostring) : outcome (list table_schema) :=
  match tables with
  | [] => Err (lit "failed to build query to get table schema: " ++ empty_in_message)
  | _ => do rows <- select tables; check_schemas tables (create_table_schemas tables rows)
  end.
(** mservice/parser/collect_table_schemas.go:17-19: COLUMN_KEY = "PRI" *)
Definition mysql_col_row (t c key : gostring) : gostring * gostring * bool := (t, c, seqb key (lit "PRI")).

(** The part of IndexSuggester.Suggest after the statement has been parsed and
    its table names and scopes collected: mservice/index_suggester.go:30-40 with
    parser/index.go:16-31 (postgres and hasura alike). Candidates of Build are
    freshly allocated, one pointer each: the pointers are the positions. *)
Definition suggest_from (fold : rune -> rune) (ord : order gostring) (ordf : order ifield)
    (srt : list index_target_table -> list index_target_table)
    (columns : list gostring -> outcome (list (list N * list N * bool)))
    (indexes : list gostring -> outcome (list index_target))
    (tables : list gostring) (scopes : list scope) : outcome (list index_target) :=
  do schemas <- collect_table_schemas columns tables;
  do its <- build ord ordf srt schemas scopes;
  let deref p := nth p its (mk_it [] []) in
  do kept <- remove_existing fold deref indexes (seq 0 (length its));
  Ok (map deref kept).
