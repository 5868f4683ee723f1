(** Model of database/mysql/mservice/parser/collect_stmt_scopes.go and
    collect_table_names.go. *)
From Coq Require Import String List NArith Bool Lia.
From Verif Require Import Base IndexText IndexBuild TableFields Existing MysqlAst.
Import ListNotations.

(** Error texts, as given to the functions of lib/errors.go (see lib_error).  Two of them also contain a text position and a type name,
    which are left out. *)
(** collect_stmt_scopes.go:23,333, collect_table_names.go:24,110 *)
Definition err_union := lit "not supporting UNION, EXCEPT etc.".
(** collect_stmt_scopes.go:26, collect_table_names.go:27 *)
Definition err_only_select := lit "only SELECT query is supported".
(** collect_stmt_scopes.go:293-297 *)
Definition err_expr := lit "not supporting query exists from".
(** collect_stmt_scopes.go:337-341 *)
Definition err_source := lit "not supporting table source exists from".
(** collect_stmt_scopes.go:344-348 *)
Definition err_ref := lit "not supporting table reference exists from".
(** collect_stmt_scopes.go:101 *)
Definition err_window := lit "not supporting WINDOW".
(** collect_stmt_scopes.go:132 *)
Definition err_with := lit "WITH is not expected".
(** collect_stmt_scopes.go:129 *)
Definition err_values_stmt := lit "SELECT for VALUES is not expected".
(** errors.go:15-21, wrapped like the others: reflect.Type.Name of a pointer type is empty, so
    the text names neither of the two nodes *)
Definition err_child := lit "parent: , child: ".
(** collect_stmt_scopes.go:324-327, collect_table_names.go:96-99 *)
Definition err_schema (s n : gostring) := lit "not supporting query referencing database explicitly: " ++ s ++ lit "." ++ n.

Section Mysql.
  (** CIStr.L is strings.ToLower of the name: code point by code point. *)
  Context (low : rune -> rune).
  (** TiDB's model.CIStr; no lines in /repo *)
  Definition L (s : gostring) : gostring := map low s.

  (** collect_stmt_scopes.go:199-204,234-240 *)
  Definition leaf_error (t : tag0) : option gostring :=
    match t with
    | TableNameExpr => Some (lit "Table definition is not expected")
    | DefaultExpr => Some (lit "DEFAULT is not expected")
    | ValuesExpr => Some (lit "VALUES is not expected")
    | MaxValueExpr => Some (lit "MAXVALUE is not expected")
    | OtherExpr => Some err_expr
    | PositionExpr | TrimDirectionExpr | TimeUnitExpr | GetFormatSelectorExpr | ValueExpr | ParamMarkerExpr => None
    end.
  (** Setting sc.lastError *)
  (** collect_stmt_scopes.go:17 *)
  Definition set_err (e : option gostring) (le : option gostring) : option gostring :=
    match e with Some _ => e | None => le end.

  (** collect_stmt_scopes.go:172-300 collectExprReferences; [le] is sc.lastError
      before and after. *)
  Fixpoint collect_expr (ty : field_type) (e : node) (le : option gostring) {struct e} : list fcol * option gostring :=
    let many := fix many (es : list node) (le : option gostring) {struct es} : list fcol * option gostring :=
      match es with
      | [] => ([], le)
      | x :: es' =>
          let '(r, le1) := collect_expr ty x le in
          let '(rs, le2) := many es' le1 in (r ++ rs, le2)
      end in
    match e with
    | Nil => ([], le)                                                         (* 173-175 *)
    | Between a b c =>                                                        (* 179-182 *)
        let '(r1, le) := collect_expr ty a le in
        let '(r2, le) := collect_expr ty b le in
        let '(r3, le) := collect_expr ty c le in (r1 ++ r2 ++ r3, le)
    | E2 t a b =>
        match t with
        | BinaryOperationExpr | CompareSubqueryExpr                           (* 183-185, 196-198 *)
        | PatternLikeExpr | PatternRegexpExpr =>                              (* 217-219, 225-227 *)
            let '(r1, le) := collect_expr ty a le in
            let '(r2, le) := collect_expr ty b le in (r1 ++ r2, le)
        end
    | Case v ws el =>                                                         (* 186-192 *)
        let '(r1, le) := collect_expr ty v le in
        let '(r2, le) := many ws le in
        let '(r3, le) := collect_expr ty el le in (r1 ++ r2 ++ r3, le)
    | When a b =>                                                             (* 188-191 *)
        let '(r1, le) := collect_expr ty a le in
        let '(r2, le) := collect_expr ty b le in (r1 ++ r2, le)
    | Subquery _ => ([mk_fcol [] [] FSubquery], le)                           (* 193-195 *)
    | Column t n => ([mk_fcol (L t) (L n) ty], le)                            (* 201-202 *)
    | PatternIn a items sel =>                                                (* 207-212 *)
        let '(r1, le) := collect_expr ty a le in
        let '(r2, le) := many items le in
        let '(r3, le) := collect_expr ty sel le in (r1 ++ r2 ++ r3, le)
    | E1 t a =>
        match t with
        | ExistsSubqueryExpr | IsNullExpr | IsTruthExpr | ParenthesesExpr     (* 205-206, 213-216, 220-221 *)
        | UnaryOperationExpr | FuncCastExpr => collect_expr ty a le           (* 232-233, 252-253 *)
        | SetCollationExpr => ([], le)                                        (* 246-247 *)
        end
    | EN t es =>
        match t with
        | RowExpr | FuncCallExpr => many es le                                (* 228-231, 248-251 *)
        end
    | UserVar _ => ([], le)                                                  (* 236-237 *)
    | Match cols against =>                                                   (* 241-245 *)
        let '(r1, le) := collect_expr ty against le in
        (r1 ++ map (fun c => mk_fcol (L (fst c)) (L (snd c)) ty) cols, le)
    | Aggregate args _ => many args le                                        (* 257-260 *)
    | Window args p o =>                                                      (* 261-274 *)
        let '(r1, le) := many args le in
        let '(r2, le) := many p le in
        let '(r3, le) := many o le in (r1 ++ r2 ++ r3, le)
    | E0 t => ([], set_err (leaf_error t) le)       (* 199-200, 203-204, 222-224, 234-240, 254-256, 284-297 *)
    | _ => ([], Some err_expr)                                                (* 292-297 *)
    end.

  (** collect_stmt_scopes.go:312-350 and 352 on: collectReferencingTables and
      collectJoinReferences (the latter is called with a *ast.Join only). *)
  Fixpoint collect_tables (n : node) (le : option gostring) {struct n} : list table * list field * option gostring :=
    let join l r on le :=
      let '(t1, f1, le) := collect_tables l le in
      let '(t2, f2, le) := collect_tables r le in
      match on with
      | Nil => (t1 ++ t2, f1 ++ f2, le)
      | _ =>
          let '(cols, le) := collect_expr FCondition on le in
          (t1 ++ t2, f1 ++ f2 ++ [mk_field [] cols], le)
      end in
    match n with
    | Nil => ([], [], le)
    | TableSource src as_ =>
        match src with
        | TableName [] name => ([mk_table (L as_) (L name) false], [], le)
        | TableName s name => ([], [], Some (err_schema s name))
        | Select _ _ _ _ _ _ _ _ _ _ => ([mk_table (L as_) [] false], [], le)
        | SetOpr _ => ([], [], Some err_union)
        | Join l r on _ => join l r on le
        | _ => ([], [], Some err_source)
        end
    | Join l r on _ => join l r on le
    | _ => ([], [], Some err_ref)
    end.

  (** collect_stmt_scopes.go:12-18; the stack (16) is only pushed and popped. *)
  Record collector := mk_coll { c_scopes : list scope; c_errors : list gostring; c_last : option gostring }.

  (** One expression that becomes a field: 163-170 createFieldFromExpr with the
      treatment of its result at each call.  A pending lastError is consumed. *)
  Definition expr_field (ty : field_type) (as_ : gostring) (e : node) (le : option gostring) (errs : list gostring)
    : list field * list gostring :=
    let '(cols, le) := collect_expr ty e le in
    match le with
    | Some m => ([], errs ++ [m])
    | None => ([mk_field as_ cols], errs)
    end.
  (** 83-90 and 104-111 *)
  Fixpoint expr_fields (ty : field_type) (es : list node) (le : option gostring) (errs : list gostring)
    : list field * list gostring * option gostring :=
    match es with
    | [] => ([], errs, le)
    | e :: es' =>
        let '(f, errs) := expr_field ty [] e le errs in
        let '(fs, errs, le) := expr_fields ty es' None errs in (f ++ fs, errs, le)
    end.
  (** 45-64 *)
  Fixpoint select_fields (fields : list node) (le : option gostring) (errs : list gostring)
    : list field * list gostring * option gostring :=
    match fields with
    | [] => ([], errs, le)
    | SelectField e wild as_ :: fields' =>
        match e with
        | Nil =>
            let '(fs, errs, le) := select_fields fields' le errs in
            (mk_field (L as_) [mk_fcol (L wild) [] FStar] :: fs, errs, le)
        | _ =>
            let '(f, errs) := expr_field FReference (L as_) e le errs in
            let '(fs, errs, le) := select_fields fields' None errs in (f ++ fs, errs, le)
        end
    | _ :: fields' => select_fields fields' le errs   (* not a SelectField: impossible *)
    end.
  (** collect_stmt_scopes.go:74-99,113-121: a clause that may be missing *)
  Definition opt_field (ty : field_type) (e : node) (le : option gostring) (errs : list gostring)
    : list field * list gostring * option gostring :=
    match e with
    | Nil => ([], errs, le)
    | _ => let '(f, errs) := expr_field ty [] e le errs in (f, errs, None)
    end.
  (** dparser/stmt_scope.go:5 *)
  Definition root_scope_name : gostring := lit "<root>".

  (** 37-147 Enter *)
  Definition enter_scope (n : node) (c : collector) : collector :=
    match n with
    | Select ctes fields from wh g h ws o lim vals =>
        let '(f1, errs, le) := select_fields fields (c_last c) (c_errors c) in
        let '(tables, f2, errs, le) :=
          match from with
          | Nil => ([], [], errs, le)
          | _ =>
              let '(ts, fs, le) := collect_tables from le in
              (ts, fs, match le with Some m => errs ++ [m] | None => errs end, None)
          end in
        let '(f3, errs, le) := opt_field FCondition wh le errs in
        let '(f4, errs, le) := expr_fields FReference g le errs in
        let '(f5, errs, le) := opt_field FReference h le errs in
        let errs := match ws with [] => errs | _ => errs ++ [err_window] end in
        let '(f6, errs, le) := expr_fields FReference o le errs in
        let '(f7, errs, le) :=
          match lim with
          | Limit cnt off =>
              let '(fa, errs) := expr_field FReference [] cnt le errs in
              let '(fb, errs) := expr_field FReference [] off None errs in (fa ++ fb, errs, None)
          | _ => ([], errs, le)
          end in
        let le := if vals then Some err_values_stmt else le in
        let le := match ctes with [] => le | _ => Some err_with end in
        let found := f1 ++ f2 ++ f3 ++ f4 ++ f5 ++ f6 ++ f7 in
        let sc := Scope root_scope_name (filter (fun f => match f_cols f with [] => false | _ => true end) found) [] tables [] in
        {| c_scopes := match c_scopes c with [] => [sc] | l => l end; c_errors := errs; c_last := le |}
    | _ => c
    end.
  (** 149-155 Leave only pops the stack *)
  Definition leave_scope (n : node) (c : collector) : collector := c.

  (** 20-35 CollectStmtScopes: scopes or errors *)
  Definition collect_scopes (root : node) : list scope + list gostring :=
    match root with
    | SetOpr _ => inr [err_union]
    | Select _ _ _ _ _ _ _ _ _ _ =>
        let c := walk enter_scope leave_scope root (mk_coll [] [] None) in
        match c_errors c with [] => inl (c_scopes c) | errs => inr errs end
    | _ => inr [err_only_select]
    end.

  (** collect_table_names.go:10-14 *)
  Record tcollector := mk_tc { tc_tables : list gostring; tc_errors : list gostring; tc_ctes : list (list gostring) }.
  (** collect_table_names.go:61-71 *)
  Definition cte_names (ctes : list node) : list gostring :=
    flat_map (fun n => match n with Cte name _ => [L name] | _ => [] end) ctes.
  (** 81-90 isCteTable *)
  Definition is_cte (tc : tcollector) (name : gostring) : bool := existsb (fun l => str_in name l) (tc_ctes tc).
  (** 92-117 addTableIfNotDerived *)
  Definition add_table (src : node) (tc : tcollector) : tcollector :=
    match src with
    | TableName [] name =>
        if is_cte tc (L name) then tc else mk_tc (tc_tables tc ++ [L name]) (tc_errors tc) (tc_ctes tc)
    | TableName s name => mk_tc (tc_tables tc) (tc_errors tc ++ [err_schema s name]) (tc_ctes tc)
    | Select _ _ _ _ _ _ _ _ _ _ => tc
    | SetOpr _ => mk_tc (tc_tables tc) (tc_errors tc ++ [err_union]) (tc_ctes tc)
    | _ => mk_tc (tc_tables tc) (tc_errors tc ++ [err_child]) (tc_ctes tc)
    end.
  (** 43-51 Enter, 61-71 pushCteTables (the top of the stack comes first here) *)
  Definition enter_table (n : node) (tc : tcollector) : tcollector :=
    match n with
    | Select (c :: ctes) _ _ _ _ _ _ _ _ _ =>
        mk_tc (tc_tables tc) (tc_errors tc) (cte_names (c :: ctes) :: tc_ctes tc)
    | TableSource src _ => add_table src tc
    | _ => tc
    end.
  (** 53-59 Leave, 73-79 popCteTables *)
  Definition leave_table (n : node) (tc : tcollector) : tcollector :=
    match n with
    | Select (_ :: _) _ _ _ _ _ _ _ _ _ => mk_tc (tc_tables tc) (tc_errors tc) (tl (tc_ctes tc))
    | _ => tc
    end.
  (** 21-41 CollectTableNames; [ord] is the order of the set's values (lib/set.go:33-40) *)
  Definition collect_table_names (ord : list gostring -> list gostring) (root : node) : list gostring + list gostring :=
    match root with
    | SetOpr _ => inr [err_union]
    | Select _ _ _ _ _ _ _ _ _ _ =>
        let tc := walk enter_table leave_table root (mk_tc [] [] []) in
        match tc_errors tc with
        | [] => inl (ord (fold_left (fun s t => if str_in t s then s else s ++ [t]) (tc_tables tc) []))
        | errs => inr errs
        end
    | _ => inr [err_only_select]
    end.
End Mysql.

(** mservice/index_suggester.go:23-41 Suggest with parser/index.go:10-32
    ListPossibleIndexes and parse.go:8-15.  [parsed] is what the TiDB parser
    returns for the query: an error or the statements in it. *)
Definition first_error {A} (r : A + list gostring) : outcome A :=
  match r with
  | inl x => Ok x
  | inr (m :: _) => Err (lib_error m)
  | inr [] => Err []          (* not possible: errors are only returned if there are any *)
  end.
(** mservice/index_suggester.go:23-41 *)
Definition mysql_suggest (low fold : rune -> rune) (set_ord : list gostring -> list gostring)
    (ord : order gostring) (ordf : order ifield) (srt : list index_target_table -> list index_target_table)
    (columns : list gostring -> outcome (list (list N * list N * bool)))
    (rows : list gostring -> outcome (list flat_row))
    (parsed : outcome (list node)) : outcome (list index_target) :=
  do stmts <- parsed;
  match stmts with
  | [] => Panic
  | root :: _ =>
      do tables <- first_error (collect_table_names low set_ord root);
      do schemas <- collect_table_schemas columns tables;
      do scopes <- first_error (collect_scopes low root);
      do its <- build ord ordf srt schemas scopes;
      let deref p := nth p its (mk_it [] []) in
      do kept <- remove_existing fold deref (mysql_get_indexes rows) (seq 0 (length its));
      Ok (map deref kept)
  end.
