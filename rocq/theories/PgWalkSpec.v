(** What walking a PostgreSQL statement is supposed to do, which statements are
    to be refused and which tables a statement reads. *)
From Coq Require Import String List NArith Bool Lia Arith Permutation.
From Verif Require Import Base IndexText IndexBuild TableFields PgAst PgSpec.
Import ListNotations.

(** ** Walking *)
Inductive event := Entered (n : node) | Left (n : node).
(** Properly nested *)
Inductive nested : list event -> Prop :=
| nested_nil : nested []
| nested_node : forall n a b, nested a -> nested b -> nested (Entered n :: a ++ Left n :: b).
(** A collector that gets these events *)
Section Run.
  Context {S : Type} (enter leave : node -> S -> outcome S).
  Fixpoint run (t : list event) (s : S) : outcome S :=
    match t with
    | [] => Ok s
    | Entered n :: t' => do s <- enter n s; run t' s
    | Left n :: t' => do s <- leave n s; run t' s
    end.
End Run.
Definition entered (l : list event) : list node :=
  flat_map (fun e => match e with Entered n => [n] | Left _ => [] end) l.
Definition is_nil (n : node) : bool := match n with Nil => true | _ => false end.
Definition real (l : list node) : list node := filter (fun n => negb (is_nil n)) l.

(** Kinds of nodes that have to be refused *)
Definition unsupported_kind (n : node) : Prop :=
  match n with
  | A0 (DefaultVal | PartitionMaxVal | PartitionMinVal | TypedDummy | IndexedVar | CommentOnColumn | OtherExpr) => True
  | E1 (IsOfTypeExpr | IndirectionExpr | ArrayFlatten) _ => True
  | E3 (IfErrExpr | IfExpr) _ _ _ => True
  | AllColumns _ | ColumnItem _ _ => True
  | ParenTable _ | UsingCols _ | Natural | ObjectName _ | OtherNode => True
  | _ => False
  end.
(** All nodes of a tree *)
Inductive nodes : node -> list node -> Prop :=
| nodes_absent : nodes Nil []
| nodes_node : forall n l, n <> Nil -> nodes_all (children n) l -> nodes n (n :: l)
with nodes_all : list node -> list node -> Prop :=
| nodes_nil : nodes_all [] []
| nodes_cons : forall x xs a b, nodes x a -> nodes_all xs b -> nodes_all (x :: xs) (a ++ b).
(** Parts the walker does not look at: OFFSET, ORDER BY of functions and windows
    (and the members of constants) *)
Definition blind_spot (n : node) : Prop :=
  match n with
  | Limit _ off => off <> Nil
  | Func _ _ _ o | WindowDef _ o _ => o <> []
  | DSeq l => l <> []
  | _ => False
  end.
Definition visible (n : node) : list node :=
  match n with
  | Limit c _ => [c]
  | Func a f w _ => [w; a; f]
  | WindowDef p _ f => [p; f]
  | DSeq _ => []
  | _ => children n
  end.
Inductive reached : node -> node -> Prop :=
| reached_self : forall n, reached n n
| reached_in : forall n k m, ~ unsupported_kind n -> In k (visible n) -> k <> Nil -> reached k m -> reached n m.

(** ** Tables *)
Definition declared (norm : gostring -> gostring) (w : node) (x : gostring) : Prop :=
  match w with With ctes => exists name s, In (CTE name s) ctes /\ x = norm name | _ => False end.
Definition with_of (n : node) : node := match n with Select _ w _ _ _ => w | _ => Nil end.
(** [n] reads the table with this (normalised) name; WITH hides names in the whole
    SELECT, including the WITH queries themselves. *)
Inductive table_read (norm : gostring -> gostring) : (gostring -> Prop) -> node -> gostring -> Prop :=
| read_here : forall (hidden : gostring -> Prop) s t as_ lat, ~ hidden (norm t) ->
    table_read norm hidden (Aliased (TableName [] s t) as_ lat) (norm t)
| read_below : forall (hidden : gostring -> Prop) n k t, ~ unsupported_kind n -> In k (visible n) -> k <> Nil ->
    table_read norm (fun c => hidden c \/ declared norm (with_of n) c) k t -> table_read norm hidden n t.
(** A table of another schema or catalog *)
Definition foreign_table (n : node) : Prop :=
  match n with
  | Aliased (TableName c s _) _ _ => c <> [] \/ (s <> [] /\ s <> lit "public")
  | _ => False
  end.

(** ** Crashes *)
(** A plain SELECT, i.e. not UNION, VALUES or parentheses *)
Definition is_query (n : node) : Prop := exists id w xs fr wh hv d g win o l, n = Select id w (SelectClause xs fr wh hv d g win) o l.
(** A window frame with one bound; a parenthesised table expression *)
Definition crashing (n : node) : Prop := half_frame n \/ exists t, n = ParenTable t.
Definition crashes (n : node) : Prop := exists m, within n m /\ crashing m.

(** ** SELECTs to be refused *)
Section Pg.
  Context (norm : gostring -> gostring) (target : gostring).
  Definition has_offence (e : node) : Prop := exists m, part e m /\ offends target m.
  Inductive bad_from : node -> Prop :=
  | bad_table : forall c s t as_ lat, c <> [] \/ (norm s <> [] /\ norm s <> target) -> bad_from (Aliased (TableName c s t) as_ lat)
  | bad_derived : forall sid q as_ lat, (forall id w b o l, q <> ParenSelect (Select id w b o l)) -> bad_from (Aliased (Subquery sid q) as_ lat)
  | bad_nested : forall x a l as_ lat, bad_from (Aliased (Aliased x a l) as_ lat)
  | bad_rows : forall rows e, In e rows -> has_offence e -> bad_from (RowsFrom rows)
  | bad_join_l : forall l r c, bad_from l -> bad_from (Join l r c)
  | bad_join_r : forall l r c, bad_from r -> bad_from (Join l r c)
  | bad_on : forall l r e, has_offence e -> bad_from (Join l r (On e))
  | bad_rows_as : forall rows as_ lat, bad_from (RowsFrom rows) -> bad_from (Aliased (RowsFrom rows) as_ lat)
  | bad_join_as : forall l r c as_ lat, bad_from (Join l r c) -> bad_from (Aliased (Join l r c) as_ lat).
  Definition select_exprs (xs wh hv : node) (g : list node) (o l : node) : list node :=
    (match xs with SelectExprs es => flat_map (fun x => match x with SelectExpr e _ => [e] | _ => [] end) es | _ => [] end) ++
    (match wh with Where e => [e] | _ => [] end) ++ (match hv with Where e => [e] | _ => [] end) ++ g ++
    (match o with OrderBy os => order_exprs os | _ => [] end) ++
    (match l with Limit c off => [c; off] | _ => [] end).
  Definition unsupported_select (n : node) : Prop :=
    match n with
    | Select _ _ (SelectClause xs (From _ froms) wh hv _ g win) o l =>
        win = true \/ (exists f, In f froms /\ bad_from f) \/ exists e, In e (select_exprs xs wh hv g o l) /\ has_offence e
    | _ => False
    end.
End Pg.
(** A query with a select list *)
Definition asks (n : node) : Prop :=
  match n with Select _ _ (SelectClause (SelectExprs (_ :: _)) _ _ _ _ _ _) _ _ => True | _ => False end.
(** WITH and any query below, such as the WITH query itself *)
Definition with_query (n : node) : Prop :=
  match n with
  | Select _ w (SelectClause _ _ _ _ _ _ _) _ _ => w <> Nil /\ exists k m, In k (visible n) /\ k <> Nil /\ reached k m /\ asks m
  | _ => False
  end.

(** Which tables are read according to SQL: a WITH query sees the names before it
    only (without RECURSIVE). *)
Inductive really_read (norm : gostring -> gostring) : (gostring -> Prop) -> node -> gostring -> Prop :=
| really_here : forall (hidden : gostring -> Prop) s t as_ lat, ~ hidden (norm t) ->
    really_read norm hidden (Aliased (TableName [] s t) as_ lat) (norm t)
| really_with : forall (hidden : gostring -> Prop) n before name q after t, with_of n = With (before ++ CTE name q :: after) ->
    really_read norm (fun c => hidden c \/ declared norm (With before) c) q t -> really_read norm hidden n t
| really_below : forall (hidden : gostring -> Prop) n k t, In k (visible n) -> k <> with_of n ->
    really_read norm (fun c => hidden c \/ declared norm (with_of n) c) k t -> really_read norm hidden n t.

(** ** Derived tables stand in the last item of FROM *)
Definition late_derived (n : node) : Prop :=
  forall id w xs a before x after wh hv d g win o l, within n (Select id w (SelectClause xs (From a (before ++ x :: after)) wh hv d g win) o l) ->
    after <> [] -> forall sid q as_ lat, ~ within x (Aliased (Subquery sid q) as_ lat).

(** WITH clauses consist of WITH queries and stand in front, as Go's types prescribe. *)
Definition with_shaped (n : node) : Prop :=
  forall id w b o l, within n (Select id w b o l) ->
    (w = Nil \/ exists ctes, w = With ctes /\ forall x, In x ctes -> exists name q, x = CTE name q) /\
    forall ctes, ~ In (With ctes) [b; o; l].

(** ** Columns *)
(** A column name mentioned in a scope or below it *)
Inductive mentions : scope -> gostring -> Prop :=
| mentions_here : forall name fields fscs tables subs f c, In f fields -> In c (f_cols f) -> fc_type c <> FStar -> fc_type c <> FSubquery ->
    mentions (Scope name fields fscs tables subs) (fc_name c)
| mentions_field : forall name fields fscs tables subs s c, In s fscs -> mentions s c -> mentions (Scope name fields fscs tables subs) c
| mentions_sub : forall name fields fscs tables subs s c, In s subs -> mentions s c -> mentions (Scope name fields fscs tables subs) c.
(** This node is the column name [c]. *)
Definition names_column (norm : gostring -> gostring) (n : node) (c : gostring) : Prop :=
  match n with
  | Name false parts => c = nth 0 parts []
  | ColumnAccess (Name _ _) c' => c = c'
  | ColumnItem _ c' => c = norm c'
  | _ => False
  end.
