(** What the messages of the MySQL collectors say about a statement. *)
From Coq Require Import String List NArith Bool.
From Verif Require Import Base MysqlAst MysqlSpec.
Import ListNotations.

(** ** Places *)
(** [x] stands where a table is read: the FROM clause itself or a side of one of its joins *)
Inductive joined : node -> node -> Prop :=
| j_self : forall x, joined x x
| j_left : forall l r on u x, joined l x -> joined (Join l r on u) x
| j_right : forall l r on u x, joined r x -> joined (Join l r on u) x
| j_paren : forall l r on u a x, joined (Join l r on u) x -> joined (TableSource (Join l r on u) a) x.
(** [e] is an expression of the SELECT itself *)
Definition clause (s e : node) : Prop :=
  match s with
  | Select _ fields from wh g h _ o lim _ =>
      (exists w a, In (SelectField e w a) fields) \/ (exists l r u, joined from (Join l r e u)) \/
      e = wh \/ In e g \/ e = h \/ In e o \/ (exists x, lim = Limit e x \/ lim = Limit x e)
  | _ => False
  end.

(** ** What is wrong with a node at its place, in the words of the message *)
Inductive odd_expression : node -> gostring -> Prop :=
| odd_table : odd_expression (E0 TableNameExpr) (of_string "Table definition is not expected")
| odd_default : odd_expression (E0 DefaultExpr) (of_string "DEFAULT is not expected")
| odd_values : odd_expression (E0 ValuesExpr) (of_string "VALUES is not expected")
| odd_maxvalue : odd_expression (E0 MaxValueExpr) (of_string "MAXVALUE is not expected")
| odd_other : forall n, n = E0 OtherExpr \/ match n with
    | Select _ _ _ _ _ _ _ _ _ _ | SetOpr _ | Cte _ _ | SelectField _ _ _ | Limit _ _ | TableSource _ _ | TableName _ _ | Join _ _ _ _ => True
    | _ => False end ->
    odd_expression n (of_string "not supporting query exists from").
Inductive odd_source : node -> gostring -> Prop :=
| odd_database : forall s n a, s <> [] -> odd_source (TableSource (TableName s n) a)
    (of_string "not supporting query referencing database explicitly: " ++ s ++ of_string "." ++ n)
| odd_union : forall l a, odd_source (TableSource (SetOpr l) a) (of_string "not supporting UNION, EXCEPT etc.").
Definition not_a_table (src : node) : Prop :=
  match src with TableName _ _ | Select _ _ _ _ _ _ _ _ _ _ | SetOpr _ => False | _ => True end.
Inductive odd_reference : node -> gostring -> Prop :=
| odd_named : forall x m, odd_source x m -> odd_reference x m
| odd_kind : forall src a, not_a_table src -> (forall l r on u, src <> Join l r on u) ->
    odd_reference (TableSource src a) (of_string "not supporting table source exists from")
| odd_place : forall x, match x with Nil | TableSource _ _ | Join _ _ _ _ => False | _ => True end ->
    odd_reference x (of_string "not supporting table reference exists from").
Inductive odd_select : node -> gostring -> Prop :=
| odd_window : forall s, has_window s -> odd_select s (of_string "not supporting WINDOW")
| odd_values_statement : forall s, has_values s -> odd_select s (of_string "SELECT for VALUES is not expected")
| odd_with : forall s, has_with s -> odd_select s (of_string "WITH is not expected").

(** ** The statement *)
Inductive odd_statement : node -> gostring -> Prop :=
| odd_root_union : forall l, odd_statement (SetOpr l) (of_string "not supporting UNION, EXCEPT etc.")
| odd_root : forall n, ~ is_select n -> (forall l, n <> SetOpr l) -> odd_statement n (of_string "only SELECT query is supported").
(** for the scopes *)
Inductive my_complaint (root : node) : gostring -> Prop :=
| mc_root : forall m, odd_statement root m -> my_complaint root m
| mc_select : forall s m, inside root s -> odd_select s m -> my_complaint root m
| mc_expression : forall s e n m, inside root s -> clause s e -> part e n -> odd_expression n m -> my_complaint root m
| mc_from : forall s x m, inside root s -> joined (select_from s) x -> odd_reference x m -> my_complaint root m.
(** for the names of the tables *)
Inductive my_name_complaint (root : node) : gostring -> Prop :=
| mn_root : forall m, odd_statement root m -> my_name_complaint root m
| mn_source : forall x m, inside root x -> odd_source x m -> my_name_complaint root m
| mn_kind : forall src a, inside root (TableSource src a) -> not_a_table src -> my_name_complaint root (of_string "parent: , child: ").
