(** Model of database/dservice/dparser/build_table_fields.go and of
    IndexTargetBuilder.Build (index_target_builder.go:16-64). *)
From Coq Require Import String List NArith Bool Lia Arith Permutation.
From Verif Require Import Base IndexText IndexBuild.
Import ListNotations.

(** field_column.go:3-10 FieldColumn.  ReferenceName is only used while the AST
    is collected and is left out here. *)
Record fcol := mk_fcol { fc_table : gostring; fc_name : gostring; fc_type : field_type }.
(** field.go:3-6 *)
Record field := mk_field { f_as : gostring; f_cols : list fcol }.
(** field.go:8-16 Field.Name *)
Definition field_name (f : field) : gostring :=
  match f_as f with
  | [] => match f_cols f with [c] => fc_name c | _ => [] end
  | _ => f_as f
  end.
(** table.go:3-7 *)
Record table := mk_table { t_as : gostring; t_name : gostring; t_lateral : bool }.
(** table.go:9-15 AsOrName *)
Definition as_or_name (t : table) : gostring := match t_as t with [] => t_name t | _ => t_as t end.
(** stmt_scope.go:7-14 StmtScope; CTEs is not read by the builder and left out. *)
Inductive scope :=
  Scope (sc_name : gostring) (sc_fields : list field) (sc_field_scopes : list scope)
        (sc_tables : list table) (sc_sub_scopes : list scope).
(** stmt_scope.go:8 *)
Definition scope_name (s : scope) : gostring := match s with Scope n _ _ _ _ => n end.

(** table_schema.go:8-12 TableSchema (columns by name, column_schema.go:3-5) *)
Record table_schema := mk_ts { ts_name : gostring; ts_cols : list gostring; ts_pks : list gostring }.
(** index_target_builder.go:16-22: later schemas of the same name win. *)
Definition schema_map (l : list table_schema) : smap table_schema :=
  fold_left (fun m t => mset m (ts_name t) t) l [].

(** build_table_fields.go:12-20 outputCol, columnInfo *)
Notation colinfo := (list N * list N)%type (only parsing).
(** build_table_fields.go:12-15 *)
Record ocol := mk_ocol { oc_name : gostring; oc_refs : list colinfo }.
(** build_table_fields.go:9-10 *)
Notation out_cols := (list (list N * list ocol)) (only parsing).
Notation tab_fields := (list (list N * list (list N * field_type))) (only parsing).

(** What scopeInfo (108-119) and refTables (248-254) hold and the loops change:
    internalCols, externalCols, asToName, subqueryAsNames, referencingFields. *)
Record info := mk_info {
  i_int : out_cols; i_ext : out_cols; i_as : smap gostring; i_sq : list gostring;
  i_rf : tab_fields }.

(** build_table_fields.go:136-154 buildReferencingColumns *)
Definition append_at {A} (m : smap (list A)) (k : gostring) (x : A) : smap (list A) :=
  mset m k (match mget m k with Some l => l ++ [x] | None => [x] end).
(** build_table_fields.go:136-154 *)
Definition referencing_columns (db : smap table_schema) (tables : list table) : out_cols :=
  fold_left (fun res t =>
    match mget db (t_name t) with
    | Some ts => fold_left (fun res c => append_at res (t_name t) (mk_ocol c [(t_name t, c)])) (ts_cols ts) res
    | None => res
    end) tables [].

(** build_table_fields.go:256-273 newRefTables, 121-134 newScopeInfo.  The
    iteration over externalCols only fills a map and a set with distinct keys,
    so its order does not matter. *)
Definition new_info (db : smap table_schema) (tables : list table) (ext : out_cols) : info :=
  {| i_int := referencing_columns db tables;
     i_ext := ext;
     i_as := fold_left (fun m t => mset m (as_or_name t) (t_name t)) tables
               (fold_left (fun m k => mset m k k) (keys ext) []);
     i_sq := keys ext;
     i_rf := [] |}.

(** build_table_fields.go:195-211 addReferencingField *)
Fixpoint add_to_cols (cols : list ifield) (c : ifield) : list ifield :=
  match cols with
  | [] => [c]
  | x :: cols' =>
      if seqb (if_name x) (if_name c)
      then (if (is_reference (if_type x) && is_condition (if_type c))%bool then c else x) :: cols'
      else x :: add_to_cols cols' c
  end.
(** build_table_fields.go:195-211 *)
Definition add_field (rf : tab_fields) (t : gostring) (c : ifield) : tab_fields :=
  match mget rf t with
  | None => mset rf t [c]
  | Some cols => mset rf t (add_to_cols cols c)
  end.

(** Iterating over a map: the keys in some order, with their values. *)
(** Go's range over a map; no lines in /repo of its own *)
Definition entries {A} (ord : order gostring) (path : list nat) (m : smap A) : list (gostring * A) :=
  flat_map (fun k => match mget m k with Some v => [(k, v)] | None => [] end) (ord path (keys m)).

(** build_table_fields.go:187-193 addReferencingFields *)
Definition add_fields (ord : order gostring) (path : list nat) (rf new : tab_fields) : tab_fields :=
  fold_left (fun rf e => fold_left (fun rf c => add_field rf (fst e) c) (snd e) rf) (entries ord path new) rf.

(** build_table_fields.go:160-163 addSubqueryInfo, 275-279 addSubquery *)
Definition add_subquery (ord : order gostring) (path : list nat) (i : info)
    (name as_name : gostring) (cols : list ocol) (new : tab_fields) : info :=
  {| i_int := mset (i_int i) name cols; i_ext := i_ext i; i_as := mset (i_as i) as_name name;
     i_sq := as_name :: i_sq i; i_rf := add_fields ord path (i_rf i) new |}.

(** build_table_fields.go:237-246 getVisibleColumns: writes distinct keys, so the
    iteration order does not matter. *)
Definition visible (i : info) : out_cols :=
  fold_left (fun res e => match mget (i_int i) (snd e) with Some cols => mset res (fst e) cols | None => res end)
            (i_as i) [].
(** lo.Assign: later maps win *)
(** samber/lo; no lines in /repo *)
Definition assign {A} (a b : smap A) : smap A := fold_left (fun m e => mset m (fst e) (snd e)) b a.

(** First column of that name. *)
(** build_table_fields.go:317-344 *)
Fixpoint find_col (n : gostring) (cols : list ocol) : option (list colinfo) :=
  match cols with
  | [] => None
  | c :: cols' => if seqb n (oc_name c) then Some (oc_refs c) else find_col n cols'
  end.
(** build_table_fields.go:334-344 getColumnInfosFromTableOutputCols: the map is
    visited in some order, the first hit is returned. *)
Fixpoint find_in_tables (n : gostring) (l : list (gostring * list ocol)) : option (list colinfo) :=
  match l with
  | [] => None
  | e :: l' => match find_col n (snd e) with Some r => Some r | None => find_in_tables n l' end
  end.
(** lib/errors.go:9-11, 21-23 NewUnsupportedError, NewInvalidAstError: errors.Wrap with an empty
    message, whose Error() still is the message, a colon, a space and the wrapped text *)
Definition lib_error (m : gostring) : gostring := lit ": " ++ m.
(** build_table_fields.go:287,296 *)
Definition no_table (n : gostring) : gostring := lib_error (lit "no table found: " ++ n).
(** build_table_fields.go:314,331 *)
Definition no_column (n : gostring) : gostring := lib_error (lit "no column found for " ++ n).
(** build_table_fields.go:317-332 getColumnInfos *)
Definition column_infos (ord : order gostring) (path : list nat) (i : info) (n : gostring) : outcome (list colinfo) :=
  match find_in_tables n (entries ord (path ++ [0]) (i_int i)) with
  | Some r => Ok r
  | None =>
      match find_in_tables n (entries ord (path ++ [1]) (i_ext i)) with
      | Some r => Ok r
      | None => if str_in n (i_sq i) then Ok [] else Err (no_column n)
      end
  end.
(** build_table_fields.go:281-300 getTableColsFromName, getTableColsFromAsName *)
Definition table_cols (i : info) (as_name : gostring) : outcome (list ocol) :=
  match mget (i_as i) as_name with
  | None => Err (no_table as_name)
  | Some name =>
      match mget (i_int i) name with
      | Some cols => Ok cols
      | None => match mget (i_ext i) name with Some cols => Ok cols | None => Err (no_table name) end
      end
  end.
(** build_table_fields.go:165-185 getColumnReferenceColumnInfos, 302-315 getReferencingColumnInfos *)
Definition column_refs (ord : order gostring) (path : list nat) (i : info) (c : fcol) : outcome (list colinfo) :=
  match fc_type c with
  | FSubquery | FStar => Ok []
  | _ =>
      match fc_table c with
      | [] => column_infos ord path i (fc_name c)
      | _ =>
          do cols <- table_cols i (fc_table c);
          match find_col (fc_name c) cols with
          | Some r => Ok r
          | None => Err (no_column (fc_name c))
          end
      end
  end.

(** build_table_fields.go:72-91: the columns of one field.  Returns all column
    infos, the new referencing fields and the star tables (a set). *)
Fixpoint field_cols (ord : order gostring) (path : list nat) (k : nat) (i : info) (cols : list fcol)
    (rf : tab_fields) (stars : list gostring) : outcome (list colinfo * tab_fields * list gostring) :=
  match cols with
  | [] => Ok ([], rf, stars)
  | c :: cols' =>
      do infos <- column_refs ord (path ++ [k]) i c;
      let rf' := fold_left (fun rf ci => add_field rf (fst ci) (snd ci, fc_type c)) infos rf in
      let stars' := match fc_type c with
                    | FStar => if str_in (fc_table c) stars then stars else stars ++ [fc_table c]
                    | _ => stars
                    end in
      do r <- field_cols ord path (S k) i cols' rf' stars';
      let '(rest, rf'', stars'') := r in
      Ok (infos ++ rest, rf'', stars'')
  end.
(** build_table_fields.go:70-97 *)
Fixpoint fields_loop (ord : order gostring) (path : list nat) (k : nat) (i : info) (fields : list field)
    (rf : tab_fields) (stars : list gostring) : outcome (list ocol * tab_fields * list gostring) :=
  match fields with
  | [] => Ok ([], rf, stars)
  | f :: fields' =>
      do r <- field_cols ord (path ++ [k]) 0 i (f_cols f) rf stars;
      let '(infos, rf', stars') := r in
      do r2 <- fields_loop ord path (S k) i fields' rf' stars';
      let '(outs, rf'', stars'') := r2 in
      Ok (match field_name f with [] => outs | n => mk_ocol n infos :: outs end, rf'', stars'')
  end.

(** lib/uniq.go:3-16 UniqBy on the name *)
Fixpoint uniq_cols (seen : list gostring) (cols : list ocol) : list ocol :=
  match cols with
  | [] => []
  | c :: cols' =>
      if str_in (oc_name c) seen then uniq_cols seen cols'
      else c :: uniq_cols (oc_name c :: seen) cols'
  end.
(** build_table_fields.go:213-226: the star tables in some order *)
Fixpoint star_cols (ord : order gostring) (path : list nat) (k : nat) (i : info) (stars : list gostring)
    : outcome (list ocol) :=
  match stars with
  | [] => Ok []
  | s :: stars' =>
      do cols <- match s with
                 | [] => Ok (concat (map snd (entries ord (path ++ [k]) (i_int i))))
                 | _ => table_cols i s
                 end;
      do rest <- star_cols ord path (S k) i stars';
      Ok (cols ++ rest)
  end.
(** build_table_fields.go:213-235 listStarReferencingCols *)
Definition list_star (ord : order gostring) (path : list nat) (i : info) (stars : list gostring)
    (found : list ocol) : outcome (list ocol) :=
  do res <- star_cols ord (path ++ [0]) 0 i (ord (path ++ [1]) stars);
  Ok (uniq_cols [] (filter (fun c => negb (str_in (oc_name c) (map oc_name found))) res)).

(** build_table_fields.go:38-40: lo.SliceToMap, the last table of a name wins *)
Definition table_map (tables : list table) : smap table := fold_left (fun m t => mset m (t_name t) t) tables [].

Notation calc_result := (outcome (list ocol * list (list N * list (list N * field_type)))) (only parsing).
(** build_table_fields.go:42-57; [tableMap[s.Name]] may be nil: panic at 46. *)
Definition subs_loop (ord : order gostring) (rec : list nat -> scope -> out_cols -> calc_result)
    (path : list nat) (tm : smap table) : nat -> list scope -> info -> outcome info :=
  fix go (k : nat) (l : list scope) (i : info) : outcome info :=
    match l with
    | [] => Ok i
    | s :: l' =>
        match mget tm (scope_name s) with
        | None => Panic
        | Some t =>
            do r <- rec (path ++ [0; k]) s (if t_lateral t then assign (i_ext i) (visible i) else i_ext i);
            go (S k) l' (add_subquery ord (path ++ [1; k]) i (scope_name s) (as_or_name t) (fst r) (snd r))
        end
    end.
(** build_table_fields.go:59-68 *)
Definition field_scopes_loop (ord : order gostring) (rec : list nat -> scope -> out_cols -> calc_result)
    (path : list nat) (vis : out_cols) : nat -> list scope -> info -> outcome info :=
  fix go (k : nat) (l : list scope) (i : info) : outcome info :=
    match l with
    | [] => Ok i
    | s :: l' =>
        do r <- rec (path ++ [2; k]) s vis;
        go (S k) l' (add_subquery ord (path ++ [3; k]) i (scope_name s) (scope_name s) (fst r) (snd r))
    end.
(** build_table_fields.go:35-106 calculateReferences *)
Fixpoint calc (ord : order gostring) (db : smap table_schema) (path : list nat) (sc : scope) (ext : out_cols)
    {struct sc} : calc_result :=
  match sc with
  | Scope _ fields fscopes tables subs =>
      do i1 <- subs_loop ord (calc ord db) path (table_map tables) 0 subs (new_info db tables ext);
      do i2 <- field_scopes_loop ord (calc ord db) path (visible i1) 0 fscopes i1;
      do r <- fields_loop ord (path ++ [4]) 0 i2 fields (i_rf i2) [];
      let '(outs, rf, stars) := r in
      do more <- list_star ord (path ++ [5]) i2 stars outs;
      Ok (outs ++ more, rf)
  end.
(** build_table_fields.go:24-33 buildTableFields *)
Definition table_fields (ord : order gostring) (db : smap table_schema) (path : list nat) (sc : scope)
    : outcome tab_fields :=
  do r <- calc ord db path sc []; Ok (snd r).

(** index_target_builder.go:48-61: the tables in map order; the schema pointer is
    nil for an unknown table. *)
Fixpoint scope_targets (ordf : order ifield) (db : smap table_schema) (path : list nat) (k : nat)
    (l : list (gostring * list ifield)) : outcome (list index_target_table) :=
  match l with
  | [] => Ok []
  | e :: l' =>
      match mget db (fst e) with
      | None => Err (lit "unknown table exists: " ++ fst e)
      | Some ts =>
          do rest <- scope_targets ordf db path (S k) l';
          Ok (map (fun fs => {| itt_table := fst e; itt_fields := fs |})
                  (index_composition ordf (path ++ [k]) (snd e) (ts_pks ts)) ++ rest)
      end
  end.
(** index_target_builder.go:40-64 buildFromScope *)
Definition build_from_scope (ord : order gostring) (ordf : order ifield) (db : smap table_schema)
    (path : list nat) (sc : scope) : outcome (list index_target_table) :=
  do rf <- table_fields ord db (path ++ [0]) sc;
  scope_targets ordf db (path ++ [1]) 0 (entries ord (path ++ [2]) rf).
(** index_target_builder.go:24-38 Build; [srt] is sort.Slice in
    SortIndexTargetTable (index_target_table.go:34-55). *)
Fixpoint build_scopes (ord : order gostring) (ordf : order ifield) (db : smap table_schema) (k : nat)
    (scs : list scope) : outcome (list index_target_table) :=
  match scs with
  | [] => Ok []
  | sc :: scs' =>
      do ts <- build_from_scope ord ordf db [k] sc;
      do rest <- build_scopes ord ordf db (S k) scs';
      Ok (ts ++ rest)
  end.
(** index_target_builder.go:24-38 *)
Definition build (ord : order gostring) (ordf : order ifield)
    (srt : list index_target_table -> list index_target_table)
    (schemas : list table_schema) (scs : list scope) : outcome (list index_target) :=
  do ts <- build_scopes ord ordf (schema_map schemas) 0 scs;
  Ok (map to_index_target (srt ts)).
