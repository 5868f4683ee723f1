(** Model of database/postgres/pservice/parser/collect_stmt_scopes.go,
    collect_table_names.go, index.go and of pservice/parse.go,
    index_suggester.go. *)
From Coq Require Import String List NArith Bool Lia Arith.
From Verif Require Import Base Dec IndexText IndexBuild TableFields Existing PgAst.
From Verif Require MysqlCollect.
Import ListNotations.

(** Error texts, as given to the functions of lib/errors.go (see lib_error); type names
    and texts of nodes inside them are left out.  Line numbers up to [collect_scopes] are
    those of collect_stmt_scopes.go. *)
(** 48 *)
Definition err_only_select := lit "only SELECT query is supported".
(** ast_walker.go:275-283 *)
Definition err_unknown_node := lit "unsupported node found".
(** 438, 450, 456, 504, 523 *)
Definition err_schema := lit "schema or catalog/db specification is not supported".
(** 417, 427 *)
Definition err_tuple_schema := lit "schema or catalog/db specification at tuple `(Table).schema.col` is not expected".
(** 465-467 *)
Definition err_expr := lit "not supporting query found.".
(** 352 *)
Definition err_default := lit "DEFAULT is not expected".
(** 355 *)
Definition err_maxvalue := lit "MAXVALUE is not expected".
(** 358 *)
Definition err_minvalue := lit "MINVALUE is not expected".
(** 592-600; a ValuesClauseWithNames is OtherNode here *)
Definition err_subquery (sel : node) : gostring :=
  match sel with
  | SelectClause _ _ _ _ _ _ _ => lit "a subquery having select clause is unexpected"
  | Union _ _ => lit "a subquery having union clause is unexpected"
  | Values _ => lit "a subquery having values clause is unexpected"
  | _ => lit "unknown subquery type"
  end.
(** 509, 543 *)
Definition err_source := lit "referencing source like [table] is not supported".
(** 511 *)
Definition err_nested_as := lit "nested AS is unexpected".
(** 545-547 *)
Definition err_from := lit "not supporting query for FROM found. (type: )".
(** 566 *)
Definition err_natural := lit "not supporting NATURAL JOIN".
(** 575-577 *)
Definition err_join := lit "not supporting query for JOIN found.".
(** 125 *)
Definition err_window := lit "not supporting WINDOW".
(** 153 *)
Definition err_with := lit "WITH is not expected".

(** What collecting an expression reads and writes of scopeCollector
    (collect_stmt_scopes.go:13-24): lastError, foundSelectInfos (by the address of
    the SELECT: name and scope of fieldOf, see 31-34) and foundSelectPrefixCounter. *)
Record estate := mk_es {
  es_last : option gostring;
  es_found : list (nat * (gostring * option nat));
  es_count : smap nat }.
(** sc.lastError = err: 255, 352 and the like *)
Definition fail (m : gostring) (es : estate) : estate := mk_es (Some m) (es_found es) (es_count es).
(** 215-219 getAndClearLastError *)
Definition no_error (es : estate) : estate := mk_es None (es_found es) (es_count es).
(** 22: foundSelectInfos, the entry written last *)
Fixpoint fget (f : list (nat * (gostring * option nat))) (id : nat) : option (gostring * option nat) :=
  match f with
  | [] => None
  | (id', i) :: f' => if Nat.eqb id id' then Some i else fget f' id
  end.
(** 604-613 incrementFoundPrefixCounter *)
Definition next_count (prefix : gostring) (m : smap nat) : nat := match mget m prefix with Some n => n | None => 0 end.
(** 588 *)
Definition select_name (prefix : gostring) (n : nat) : gostring :=
  lit "<" ++ prefix ++ dec_of_N (N.of_nat n) ++ lit ">".
(** 587-589 *)
Definition register (prefix : gostring) (field_of : option nat) (id : nat) (es : estate) : estate :=
  let n := next_count prefix (es_count es) in
  mk_es (es_last es) ((id, (select_name prefix n, field_of)) :: es_found es) (mset (es_count es) prefix (S n)).
(** 584-602 newSelectInfo; the caller's assignment of fieldOf (259) is included. *)
Definition new_select_info (prefix : gostring) (field_of : option nat) (sel : node) (es : estate)
    : option gostring * estate :=
  match sel with
  | ParenSelect (Select id _ _ _ _) =>
      (Some (select_name prefix (next_count prefix (es_count es))), register prefix field_of id es)
  | _ => (None, fail (err_subquery sel) es)
  end.

Section Pg.
  (** tree.Name.Normalize: lower case and Unicode normal form *)
  Context (norm : gostring -> gostring) (target : gostring).

  (** 629-643 isSchemaSpecified, isSchemaSpecified2 *)
  Definition schema_specified (parts : list gostring) (pos : nat) : bool :=
    ((Nat.eqb (length parts) (S pos) && negb (seqb (nth pos parts []) target)) || Nat.ltb (S pos) (length parts))%bool.
  (** 645-656 isSchemaSpecifiedTableName *)
  Definition schema_specified_name (catalog schema : gostring) : bool :=
    match catalog with
    | [] => let s := norm schema in match s with [] => false | _ => negb (seqb s target) end
    | _ => true
    end.

  (** 230-473 collectExprReferences; [top] is the scope on top of the stack. *)
  Fixpoint collect_expr (top : option nat) (ty : field_type) (e : node) (es : estate) {struct e}
      : outcome (list fcol * estate) :=
    let many := fix many (l : list node) (es : estate) {struct l} : outcome (list fcol * estate) :=
      match l with
      | [] => Ok ([], es)
      | x :: l' =>
          do r <- collect_expr top ty x es; do r2 <- many l' (snd r); Ok (fst r ++ fst r2, snd r2)
      end in
    let args := fix args (l : list node) (es : estate) {struct l} : outcome (list fcol * estate) :=
      match l with
      | [] => Ok ([], es)
      | Star :: l' => args l' es
      | x :: l' =>
          do r <- collect_expr top ty x es; do r2 <- args l' (snd r); Ok (fst r ++ fst r2, snd r2)
      end in
    let orders := fix orders (l : list node) (es : estate) {struct l} : outcome (list fcol * estate) :=
      match l with
      | [] => Ok ([], es)
      | Order x _ :: l' =>
          do r <- collect_expr top ty x es; do r2 <- orders l' (snd r); Ok (fst r ++ fst r2, snd r2)
      | _ :: l' => orders l' es
      end in
    match e with
    | Nil => Ok ([], es)                                              (* 231-233 *)
    | E3 _ a b c =>                                                   (* 238-241, 334-343 *)
        do r1 <- collect_expr top ty a es; do r2 <- collect_expr top ty b (snd r1);
        do r3 <- collect_expr top ty c (snd r2); Ok (fst r1 ++ fst r2 ++ fst r3, snd r3)
    | E2 _ a b =>                                                     (* 242-244, 318-323, 328-330, 344-346 *)
        do r1 <- collect_expr top ty a es; do r2 <- collect_expr top ty b (snd r1); Ok (fst r1 ++ fst r2, snd r2)
    | Case v ws el =>                                                 (* 245-251 *)
        do r1 <- collect_expr top ty v es; do r2 <- many ws (snd r1); do r3 <- collect_expr top ty el (snd r2);
        Ok (fst r1 ++ fst r2 ++ fst r3, snd r3)
    | Subquery _ sel =>                                               (* 252-265 *)
        let '(name, es) := new_select_info (lit "field") top sel es in
        Ok (match name with Some _ => [mk_fcol [] [] FSubquery] | None => [] end, es)
    | DSeq l | Coalesce l | Tuple l => many l es                      (* 306-313, 316-317, 347-350, 361-364 *)
    | Array (Exprs l) => many l es                                    (* 365-368 *)
    | E1 _ a => collect_expr top ty a es     (* 324-327, 331-333, 369-371, 374-375, 404-413 *)
    | A0 DefaultVal => Ok ([], fail err_default es)                   (* 351-352 *)
    | A0 PartitionMaxVal => Ok ([], fail err_maxvalue es)             (* 353-355 *)
    | A0 PartitionMinVal => Ok ([], fail err_minvalue es)             (* 356-358 *)
    | A0 OtherExpr => Ok ([], fail err_expr es)                       (* 460-469 *)
    | A0 _ => Ok ([], es)        (* 266-305, 314-315, 359-360, 372-373, 434-435, 461-463 *)
    | Func a f w o =>                                                 (* 376-403 *)
        do r1 <- match a with Exprs l => args l es | _ => Ok ([], es) end;
        do r2 <- collect_expr top ty f (snd r1);
        do r3 <- match w with
          | WindowDef p wo fr =>
              do q1 <- match p with Exprs l => many l (snd r2) | _ => Ok ([], snd r2) end;
              do q2 <- orders wo (snd q1);
              do q3 <- match fr with
                | Nil => Ok ([], snd q2)
                | WindowFrame (FrameBound s) (FrameBound e) =>
                    do b1 <- collect_expr top ty s (snd q2); do b2 <- collect_expr top ty e (snd b1);
                    Ok (fst b1 ++ fst b2, snd b2)
                | WindowFrame (FrameBound s) _ => do b1 <- collect_expr top ty s (snd q2); Panic (* EndBound is nil: 396 *)
                | _ => Panic                                          (* StartBound is nil: 395 *)
                end;
              Ok (fst q1 ++ fst q2 ++ fst q3, snd q3)
          | _ => Ok ([], snd r2)
          end;
        do r4 <- orders o (snd r3);
        Ok (fst r1 ++ fst r2 ++ fst r3 ++ fst r4, snd r4)
    | TupleStar (Name _ parts) =>                                     (* 414-420 *)
        if schema_specified parts 1 then Ok ([], fail err_tuple_schema es)
        else Ok ([mk_fcol (nth 0 parts []) [] FStar], es)
    | TupleStar a => collect_expr top ty a es                         (* 421-423 *)
    | ColumnAccess (Name _ parts) c =>                                (* 424-430 *)
        if schema_specified parts 1 then Ok ([], fail err_tuple_schema es)
        else Ok ([mk_fcol (nth 0 parts []) c ty], es)
    | ColumnAccess a _ => collect_expr top ty a es                    (* 431-433 *)
    | Name star parts =>                                              (* 436-445 *)
        if schema_specified parts 2 then Ok ([], fail err_schema es)
        else if star then Ok ([mk_fcol (nth 1 parts []) [] FStar], es)
        else Ok ([mk_fcol (nth 1 parts []) (nth 0 parts []) ty], es)
    | Star => Ok ([mk_fcol [] [] FStar], es)                          (* 446-447 *)
    | AllColumns parts =>                                             (* 448-453 *)
        if schema_specified parts 1 then Ok ([], fail err_schema es)
        else Ok ([mk_fcol (nth 0 parts []) [] FStar], es)
    | ColumnItem parts c =>                                           (* 454-459 *)
        if schema_specified parts 1 then Ok ([], fail err_schema es)
        else Ok ([mk_fcol (nth 0 parts []) (norm c) FReference], es)
    | _ => Ok ([], fail err_expr es)                                  (* 460-469 *)
    end.

  (** 516-520, 534-538: the items of ROWS FROM *)
  Fixpoint row_fields (top : option nat) (items : list node) (es : estate) : outcome (list field * estate) :=
    match items with
    | [] => Ok ([], es)
    | x :: items' =>
        do r <- collect_expr top FReference x es; do r2 <- row_fields top items' (snd r);
        Ok (mk_field [] (fst r) :: fst r2, snd r2)
    end.
  (** 475-582 collectTables, collectJoinReferences *)
  Fixpoint collect_tables (top : option nat) (n : node) (es : estate) {struct n}
      : outcome (list table * list field * estate) :=
    let join l r c es :=
      do r1 <- collect_tables top l es;
      do r2 <- collect_tables top r (snd r1);
      let ts := fst (fst r1) ++ fst (fst r2) in
      let fs := snd (fst r1) ++ snd (fst r2) in
      match c with
      | Nil => Ok (ts, fs, snd r2)
      | Natural => Ok (ts, fs, fail err_natural (snd r2))                             (* 565-566 *)
      | On x => do r3 <- collect_expr top FCondition x (snd r2);                      (* 567-568 *)
                Ok (ts, fs ++ [mk_field [] (fst r3)], snd r3)
      | UsingCols cols =>                                                             (* 569-573 *)
          Ok (ts, fs ++ map (fun c => mk_field [] [mk_fcol [] (norm c) FCondition]) cols, snd r2)
      | _ => Ok (ts, fs, fail err_join (snd r2))                                      (* 574-577 *)
      end in
    match n with
    | Nil => Ok ([], [], es)
    | Aliased x as_ lateral =>
        match x with
        | Subquery _ sel =>                                                           (* 485-501 *)
            let '(name, es) := new_select_info (lit "select") None sel es in
            Ok (match name with Some name => [mk_table (norm as_) name lateral] | None => [] end, [], es)
        | ObjectName parts =>                                                         (* 502-507 *)
            if schema_specified parts 1 then Ok ([], [], fail err_schema es)
            else Ok ([mk_table (norm as_) (nth 0 parts []) false], [], es)
        | OtherNode => Ok ([], [], fail err_source es)                                (* 508-509, 527-528 (whose text differs) *)
        | Aliased _ _ _ => Ok ([], [], fail err_nested_as es)                         (* 510-511 *)
        | ParenTable _ => Panic       (* 512-513 with 530-531: calls itself for ever with the same node *)
        | Join l r c => join l r c es                                                 (* 514-515 *)
        | RowsFrom items => do r <- row_fields top items es; Ok ([], fst r, snd r)    (* 516-520 *)
        | TableName catalog schema name =>                                            (* 521-526 *)
            if schema_specified_name catalog schema then Ok ([], [], fail err_schema es)
            else Ok ([mk_table (norm as_) name false], [], es)
        | _ => Ok ([], [], es)
        end
    | ParenTable _ => Panic                                                           (* 530-531 *)
    | Join l r c => join l r c es                                                     (* 532-533 *)
    | RowsFrom items => do r <- row_fields top items es; Ok ([], fst r, snd r)        (* 534-538 *)
    | Subquery _ _ => Ok ([], [], es)                                                 (* 539-541 *)
    | OtherNode => Ok ([], [], fail err_source es)                                    (* 542-543 *)
    | _ => Ok ([], [], fail err_from es)                                              (* 544-547 *)
    end.

  (** dparser/stmt_scope.go:7-14: a scope under construction; scopes refer to each other
      by address, i.e. position in the heap. *)
  Record cell := mk_cell {
    cl_name : gostring; cl_fields : list field; cl_fscopes : list nat;
    cl_tables : list table; cl_subs : list nat }.
  (** 206, 620 *)
  Definition new_cell (name : gostring) : cell := mk_cell name [] [] [] [].
  (** 207 *)
  Definition add_fscope (i : nat) (c : cell) : cell :=
    mk_cell (cl_name c) (cl_fields c) (cl_fscopes c ++ [i]) (cl_tables c) (cl_subs c).
  (** 623 *)
  Definition add_sub (i : nat) (c : cell) : cell :=
    mk_cell (cl_name c) (cl_fields c) (cl_fscopes c) (cl_tables c) (cl_subs c ++ [i]).
  (** 95, 156-160 *)
  Definition fill (fields : list field) (tables : list table) (c : cell) : cell :=
    mk_cell (cl_name c) fields (cl_fscopes c) tables (cl_subs c).
  (** writing through a pointer to a scope: 95, 158, 207, 623 *)
  Fixpoint update (i : nat) (f : cell -> cell) (h : list cell) : list cell :=
    match h, i with
    | [], _ => []
    | c :: h', 0 => f c :: h'
    | c :: h', S i' => c :: update i' f h'
    end.
  (** 26-29: addresses of nodes on the stack, scopeInfo.node *)
  Inductive addr := SelectAt (id : nat) | SubqueryAt (id : nat).
  (** 170: comparing two interface values that hold pointers *)
  Definition addr_eqb (a b : addr) : bool :=
    match a, b with
    | SelectAt i, SelectAt j | SubqueryAt i, SubqueryAt j => Nat.eqb i j
    | _, _ => false
    end.
  (** 63, 74: the node given to Enter *)
  Definition addr_of (n : node) : option addr :=
    match n with
    | Select id _ _ _ _ => Some (SelectAt id)
    | Subquery id _ => Some (SubqueryAt id)
    | _ => None
    end.
  (** 13-24 scopeCollector *)
  Record collector := mk_coll {
    c_heap : list cell;
    c_scopes : list nat;
    c_errors : list gostring;
    c_stack : list (addr * nat);        (* the top comes first *)
    c_es : estate }.
  (** 259, 186: scopeStack.Top() *)
  Definition top_scope (c : collector) : option nat :=
    match c_stack c with [] => None | (_, i) :: _ => Some i end.

  (** Collecting the parts of one SELECT: errors so far and the expression state *)
  Notation estep A := (outcome (A * list gostring * estate)) (only parsing).
  (** 77-88 and 221-228 createFieldFromExpr with the callers' treatment *)
  Definition expr_field (top : option nat) (ty : field_type) (as_ : gostring) (e : node)
      (errs : list gostring) (es : estate) : estep (list field) :=
    do r <- collect_expr top ty e es;
    Ok (match es_last (snd r) with
        | Some m => ([], errs ++ [m], no_error (snd r))
        | None => ([mk_field as_ (fst r)], errs, snd r)
        end).
  (** 77-88, 106-115, 127-136: the expression of each element *)
  Fixpoint expr_fields (top : option nat) (get : node -> gostring * node) (l : list node)
      (errs : list gostring) (es : estate) : estep (list field) :=
    match l with
    | [] => Ok ([], errs, es)
    | x :: l' =>
        do r <- expr_field top FReference (fst (get x)) (snd (get x)) errs es;
        let '(f, errs, es) := r in
        do r2 <- expr_fields top get l' errs es;
        let '(fs, errs, es) := r2 in
        Ok (f ++ fs, errs, es)
    end.
  (** 77-78, 85 *)
  Definition get_select_expr (x : node) : gostring * node :=
    match x with SelectExpr e as_ => (as_, e) | _ => ([], x) end.
  (** 107-108 *)
  Definition get_expr (x : node) : gostring * node := ([], x).
  (** 128-129 *)
  Definition get_order (x : node) : gostring * node :=
    match x with Order e _ => ([], e) | _ => ([], Nil) end.
  (** 89-97: Tables is overwritten by each item *)
  Fixpoint from_items (top : option nat) (l : list node) (tables : list table)
      (errs : list gostring) (es : estate) : estep (list table * list field) :=
    match l with
    | [] => Ok ((tables, []), errs, es)
    | x :: l' =>
        do r <- collect_tables top x es;
        let '(ts, fs, es) := r in
        let errs := match es_last es with Some m => errs ++ [m] | None => errs end in
        do r2 <- from_items top l' ts errs (no_error es);
        let '((ts, fs'), errs, es) := r2 in
        Ok ((ts, fs ++ fs'), errs, es)
    end.
  (** 98-105, 116-123: WHERE, HAVING *)
  Definition opt_field (top : option nat) (ty : field_type) (w : node) (errs : list gostring) (es : estate)
      : estep (list field) :=
    match w with
    | Where e => expr_field top ty [] e errs es
    | _ => Ok ([], errs, es)
    end.
  (** 77, 89, 128: the list of a clause; absent it is empty *)
  Definition list_of (n : node) : list node :=
    match n with SelectExprs l | OrderBy l => l | From _ l => l | _ => [] end.

  (** 76-160: what Enter finds in a SELECT: tables, fields *)
  Definition collect_select (top : option nat) (with_ clause order limit : node) (errs : list gostring) (es : estate)
      : estep (list table * list field) :=
    match clause with
    | SelectClause exprs from wh hv _ group window =>
        do r1 <- expr_fields top get_select_expr (list_of exprs) errs es;
        let '(f1, errs, es) := r1 in
        do r2 <- from_items top (list_of from) [] errs es;
        let '((tables, f2), errs, es) := r2 in
        do r3 <- opt_field top FCondition wh errs es;
        let '(f3, errs, es) := r3 in
        do r4 <- expr_fields top get_expr group errs es;
        let '(f4, errs, es) := r4 in
        do r5 <- opt_field top FReference hv errs es;
        let '(f5, errs, es) := r5 in
        let errs := if window then errs ++ [err_window] else errs in
        do r6 <- expr_fields top get_order (list_of order) errs es;
        let '(f6, errs, es) := r6 in
        do r7 <- match limit with
          | Limit cnt off =>
              do r <- expr_field top FReference [] cnt errs es;
              let '(fa, errs, es) := r in
              do r <- expr_field top FReference [] off errs es;
              let '(fb, errs, es) := r in
              Ok (fa ++ fb, errs, es)
          | _ => Ok ([], errs, es)
          end;
        let '(f7, errs, es) := r7 in
        let es := match with_ with Nil => es | _ => fail err_with es end in
        Ok ((tables, filter (fun f => match f_cols f with [] => false | _ => true end)
                       (f1 ++ f2 ++ f3 ++ f4 ++ f5 ++ f6 ++ f7)), errs, es)
    | _ => Ok (([], []), errs, es)
    end.

  (** 177-213 newStmtScopeIfEnterRequired with 615-627 newScope: the collector
      with the new scope, its address, and the SELECT to collect *)
  Definition new_scope (n : node) (c : collector) : option (collector * nat * node) :=
    let here := length (c_heap c) in
    match n with
    | Select id _ _ _ _ =>
        let name := match fget (es_found (c_es c)) id with Some (m, _) => m | None => lit "<root>" end in
        let entered :=
          let h := match top_scope c with Some p => update p (add_sub here) (c_heap c) | None => c_heap c end in
          Some (mk_coll (h ++ [new_cell name]) (c_scopes c) (c_errors c) (c_stack c) (c_es c), here, n) in
        match fget (es_found (c_es c)) id with
        | Some (_, Some _) => None
        | _ => entered
        end
    | Subquery _ (ParenSelect (Select id a b o l)) =>
        match fget (es_found (c_es c)) id with
        | Some (m, Some p) =>
            Some (mk_coll (update p (add_fscope here) (c_heap c) ++ [new_cell m])
                    (c_scopes c) (c_errors c) (c_stack c) (c_es c), here, Select id a b o l)
        | _ => None
        end
    | _ => None
    end.
  (** 63-167 Enter *)
  Definition enter_scope (n : node) (c : collector) : outcome collector :=
    match new_scope n c with
    | None => Ok c
    | Some (c, here, sel) =>
        match sel, addr_of n with
        | Select _ w (SelectClause exprs from wh hv d g win) o l, Some a =>
            do r <- collect_select (Some here) w (SelectClause exprs from wh hv d g win) o l (c_errors c) (c_es c);
            let '((tables, fields), errs, es) := r in
            Ok (mk_coll (update here (fill fields tables) (c_heap c))
                  (match c_scopes c with [] => [here] | s => s end) errs ((a, here) :: c_stack c) es)
        | _, _ => Ok c
        end
    end.
  (** 169-175 Leave: Top() of an empty stack is nil *)
  Definition leave_scope (n : node) (c : collector) : outcome collector :=
    match c_stack c with
    | [] => Panic
    | (a, _) :: stack =>
        match addr_of n with
        | Some b => if addr_eqb a b then Ok (mk_coll (c_heap c) (c_scopes c) (c_errors c) stack (c_es c)) else Ok c
        | None => Ok c
        end
    end.

  (** 60: the scope at an address with everything below it; a new scope is always
      younger than its parent, so the size of the heap is enough fuel. *)
  Fixpoint read_scope (fuel : nat) (h : list cell) (i : nat) : scope :=
    match fuel with
    | 0 => Scope [] [] [] [] []
    | S fuel' =>
        let c := nth i h (new_cell []) in
        Scope (cl_name c) (cl_fields c) (map (read_scope fuel' h) (cl_fscopes c))
              (cl_tables c) (map (read_scope fuel' h) (cl_subs c))
    end.
  (** 45-61 CollectStmtScopes: scopes or errors; ast_walker.go:24-39 Walk *)
  Definition collect_scopes (root : node) : outcome (list scope + list gostring) :=
    match root with
    | Select _ _ _ _ _ =>
        do r <- walk enter_scope leave_scope root (mk_coll [] [] [] [] (mk_es None [] [])) [];
        let '(c, unknown) := r in
        match map (fun _ => err_unknown_node) unknown with
        | [] =>
            match c_errors c with
            | [] => Ok (inl (map (read_scope (length (c_heap c)) (c_heap c)) (c_scopes c)))
            | errs => Ok (inr errs)
            end
        | errs => Ok (inr errs)
        end
    | _ => Ok (inr [err_only_select])
    end.

  (** collect_table_names.go:11-15 tableCollector (aliases are not used) *)
  Record tcollector := mk_tc { tc_tables : list gostring; tc_errors : list gostring; tc_ctes : list (list gostring) }.
  (** collect_table_names.go:70-80 pushCteTables *)
  Definition cte_names (ctes : list node) : list gostring :=
    flat_map (fun n => match n with CTE name _ => [norm name] | _ => [] end) ctes.
  (** 90-99 isCteTable *)
  Definition is_cte (tc : tcollector) (name : gostring) : bool := existsb (fun l => str_in name l) (tc_ctes tc).
  (** collect_table_names.go:101-114 *)
  Definition err_explicit (c s n : gostring) : gostring :=
    lit "not supporting query referencing schema or catalog explicitly: " ++ c ++ lit "." ++ s ++ lit "." ++ n.
  (** 101-114 addTableIfNotDerived *)
  Definition add_table (catalog schema name : gostring) (tc : tcollector) : tcollector :=
    if ((negb (seqb schema (lit "public")) && negb (seqb schema [])) || negb (seqb catalog []))%bool
    then mk_tc (tc_tables tc) (tc_errors tc ++ [err_explicit catalog schema name]) (tc_ctes tc)
    else if is_cte tc (norm name) then tc
    else mk_tc (tc_tables tc ++ [name]) (tc_errors tc) (tc_ctes tc).
  (** 49-60 Enter, 70-80 pushCteTables *)
  Definition enter_table (n : node) (tc : tcollector) : outcome tcollector :=
    Ok match n with
    | Select _ (With ctes) _ _ _ => mk_tc (tc_tables tc) (tc_errors tc) (cte_names ctes :: tc_ctes tc)
    | Aliased (TableName c s t) _ _ => add_table c s t tc
    | _ => tc
    end.
  (** 62-68 Leave, 82-88 popCteTables *)
  Definition leave_table (n : node) (tc : tcollector) : outcome tcollector :=
    Ok match n with
    | Select _ (With _) _ _ _ => mk_tc (tc_tables tc) (tc_errors tc) (tl (tc_ctes tc))
    | _ => tc
    end.
  (** 22-47 CollectTableNames, getTableNames; [ord] is the order of the set's values *)
  Definition collect_table_names (ord : list gostring -> list gostring) (root : node)
      : outcome (list gostring + list gostring) :=
    match root with
    | Select _ _ _ _ _ =>
        do r <- walk enter_table leave_table root (mk_tc [] [] []) [];
        let '(tc, unknown) := r in
        match map (fun _ => err_unknown_node) unknown with
        | [] =>
            match tc_errors tc with
            | [] => Ok (inl (ord (fold_left (fun s t => if str_in t s then s else s ++ [t]) (map norm (tc_tables tc)) [])))
            | errs => Ok (inr errs)
            end
        | errs => Ok (inr errs)
        end
    | _ => Ok (inr [err_only_select])
    end.
End Pg.

(** pservice/index_suggester.go:22-39 Suggest with parser/index.go:10-32
    ListPossibleIndexes and parse.go:8-18; [parsed] is what the parser returns for
    the query: an error or the statements in it.  hservice/index_suggester.go is
    the same with answers from Hasura. *)
Definition pg_suggest (norm : gostring -> gostring) (fold : rune -> rune) (set_ord : list gostring -> list gostring)
    (ord : order gostring) (ordf : order ifield) (srt : list index_target_table -> list index_target_table)
    (columns : list gostring -> outcome (list (list N * list N * bool)))
    (indexes : list gostring -> outcome (list index_target))
    (parsed : outcome (list node)) : outcome (list index_target) :=
  do stmts <- parsed;
  match stmts with
  | [] => Panic
  | _ :: _ :: _ => Err (lit "not supporting query having multiple statements")
  | [root] =>
      do r <- collect_table_names norm set_ord root;
      do tables <- MysqlCollect.first_error r;
      do schemas <- collect_table_schemas columns tables;
      do r <- collect_scopes norm (lit "public") root;
      do scopes <- MysqlCollect.first_error r;
      do its <- build ord ordf srt schemas scopes;
      let deref p := nth p its (mk_it [] []) in
      do kept <- remove_existing fold deref (pg_get_indexes indexes) (seq 0 (length its));
      Ok (map deref kept)
  end.
