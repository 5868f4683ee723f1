(** What the messages of the PostgreSQL collectors say about a statement. *)
From Coq Require Import String List NArith Bool Arith.
From Verif Require Import Base IndexText IndexBuild TableFields PgAst PgSpec PgWalkSpec.
Import ListNotations.

(** ** Places *)
(** [x] stands where a table is read: an item of FROM or a side of one of its joins *)
Inductive joined : node -> node -> Prop :=
| j_self : forall x, joined x x
| j_left : forall l r c x, joined l x -> joined (Join l r c) x
| j_right : forall l r c x, joined r x -> joined (Join l r c) x
| j_named : forall l r c as_ lat x, joined (Join l r c) x -> joined (Aliased (Join l r c) as_ lat) x.
Definition members (n : node) : list node := match n with SelectExprs l | OrderBy l => l | From _ l => l | _ => [] end.
(** [e] is an expression of an item of FROM *)
Inductive from_expression (f e : node) : Prop :=
| fe_on : forall l r, joined f (Join l r (On e)) -> from_expression f e
| fe_rows : forall rows, joined f (RowsFrom rows) -> In e rows -> from_expression f e
| fe_named : forall rows as_ lat, joined f (Aliased (RowsFrom rows) as_ lat) -> In e rows -> from_expression f e.
(** [e] is an expression of the SELECT itself *)
Definition clause (s e : node) : Prop :=
  match s with
  | Select _ _ (SelectClause xs from wh hv _ g _) o lim =>
      (exists x, In x (members xs) /\ (x = e \/ exists as_, x = SelectExpr e as_)) \/
      (exists f, In f (members from) /\ from_expression f e) \/
      wh = Where e \/ In e g \/ hv = Where e \/ (exists t, In (Order e t) (members o)) \/
      (exists x, lim = Limit e x \/ lim = Limit x e)
  | _ => False
  end.
Definition from_place (s x : node) : Prop :=
  match s with
  | Select _ _ (SelectClause _ from _ _ _ _ _) _ _ => exists f, In f (members from) /\ joined f x
  | _ => False
  end.

(** ** What is wrong with a node at its place, in the words of the message *)
Inductive odd_subquery : node -> gostring -> Prop :=
| os_select : forall a b c d e f g, odd_subquery (SelectClause a b c d e f g) (of_string "a subquery having select clause is unexpected")
| os_union : forall a b, odd_subquery (Union a b) (of_string "a subquery having union clause is unexpected")
| os_values : forall l, odd_subquery (Values l) (of_string "a subquery having values clause is unexpected")
| os_unknown : forall n, (forall id w b o l, n <> ParenSelect (Select id w b o l)) ->
    match n with SelectClause _ _ _ _ _ _ _ | Union _ _ | Values _ => False | _ => True end -> odd_subquery n (of_string "unknown subquery type").
Section Pg.
Context (norm : gostring -> gostring) (target : gostring).
Definition not_an_expression (n : node) : Prop :=
  match n with
  | Nil | A0 _ | DSeq _ | E1 _ _ | E2 _ _ _ | E3 _ _ _ _ | Coalesce _ | Tuple _ | Array (Exprs _) | Case _ _ _ | Func _ _ _ _ | TupleStar _
  | ColumnAccess _ _ | Name _ _ | Star | AllColumns _ | ColumnItem _ _ | Subquery _ _ => False
  | _ => True
  end.
Inductive odd_expression : node -> gostring -> Prop :=
| odd_default : odd_expression (A0 DefaultVal) (of_string "DEFAULT is not expected")
| odd_max : odd_expression (A0 PartitionMaxVal) (of_string "MAXVALUE is not expected")
| odd_min : odd_expression (A0 PartitionMinVal) (of_string "MINVALUE is not expected")
| odd_other : forall n, n = A0 OtherExpr \/ not_an_expression n -> odd_expression n (of_string "not supporting query found.")
| odd_tuple : forall n star parts c, n = TupleStar (Name star parts) \/ n = ColumnAccess (Name star parts) c -> foreign target 1 parts ->
    odd_expression n (of_string "schema or catalog/db specification at tuple `(Table).schema.col` is not expected")
| odd_name : forall star parts, foreign target 2 parts -> odd_expression (Name star parts) (of_string "schema or catalog/db specification is not supported")
| odd_resolved : forall n parts c, n = AllColumns parts \/ n = ColumnItem parts c -> foreign target 1 parts ->
    odd_expression n (of_string "schema or catalog/db specification is not supported")
| odd_field : forall id q m, odd_subquery q m -> odd_expression (Subquery id q) m.
Inductive odd_reference : node -> gostring -> Prop :=
| odd_table : forall c s t as_ lat, c <> [] \/ (norm s <> [] /\ norm s <> target) ->
    odd_reference (Aliased (TableName c s t) as_ lat) (of_string "schema or catalog/db specification is not supported")
| odd_object : forall parts as_ lat, foreign target 1 parts ->
    odd_reference (Aliased (ObjectName parts) as_ lat) (of_string "schema or catalog/db specification is not supported")
| odd_source : forall as_ lat n, n = OtherNode \/ n = Aliased OtherNode as_ lat ->
    odd_reference n (of_string "referencing source like [table] is not supported")
| odd_nested : forall x a l as_ lat, odd_reference (Aliased (Aliased x a l) as_ lat) (of_string "nested AS is unexpected")
| odd_derived : forall id q m as_ lat, odd_subquery q m -> odd_reference (Aliased (Subquery id q) as_ lat) m
| odd_natural : forall l r, odd_reference (Join l r Natural) (of_string "not supporting NATURAL JOIN")
| odd_join : forall l r c, c <> Nil -> c <> Natural -> (forall e, c <> On e) -> (forall cols, c <> UsingCols cols) ->
    odd_reference (Join l r c) (of_string "not supporting query for JOIN found.")
| odd_place : forall x, match x with Nil | Aliased _ _ _ | ParenTable _ | Join _ _ _ | RowsFrom _ | Subquery _ _ | OtherNode => False | _ => True end ->
    odd_reference x (of_string "not supporting query for FROM found. (type: )").
Inductive odd_select : node -> gostring -> Prop :=
| odd_window : forall id w xs f wh hv d g o l, odd_select (Select id w (SelectClause xs f wh hv d g true) o l) (of_string "not supporting WINDOW")
| odd_with : forall id w b o l, w <> Nil -> odd_select (Select id w b o l) (of_string "WITH is not expected").

(** ** The statement *)
Inductive odd_statement : node -> gostring -> Prop :=
| odd_root : forall n, (forall id w b o l, n <> Select id w b o l) -> odd_statement n (of_string "only SELECT query is supported")
| odd_node : forall root n, reached root n -> unsupported_kind n -> odd_statement root (of_string "unsupported node found").
(** for the scopes *)
Inductive pg_complaint (root : node) : gostring -> Prop :=
| pc_root : forall m, odd_statement root m -> pg_complaint root m
| pc_select : forall s m, reached root s -> odd_select s m -> pg_complaint root m
| pc_expression : forall s e n m, reached root s -> clause s e -> part e n -> odd_expression n m -> pg_complaint root m
| pc_from : forall s x m, reached root s -> from_place s x -> odd_reference x m -> pg_complaint root m.
(** for the names of the tables *)
Inductive pg_name_complaint (root : node) : gostring -> Prop :=
| pn_root : forall m, odd_statement root m -> pg_name_complaint root m
| pn_table : forall c s t as_ lat, reached root (Aliased (TableName c s t) as_ lat) -> c <> [] \/ (s <> [] /\ s <> of_string "public") ->
    pg_name_complaint root (of_string "not supporting query referencing schema or catalog explicitly: " ++ c ++ of_string "." ++ s ++ of_string "." ++ t).
End Pg.
