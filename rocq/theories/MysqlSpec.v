(** What a MySQL statement mentions and reads, independent of the collectors. *)
From Coq Require Import String List NArith Bool Lia Permutation.
From Verif Require Import Base IndexText IndexBuild TableFields MysqlAst.
Import ListNotations.

(** ** Expressions *)
(** A mention is a column (qualifier, name as written) or a subquery. *)
Notation mention := (option (list N * list N)) (only parsing).
Definition inner (n : node) : Prop :=
  match n with Column _ _ | Subquery _ | Match _ _ => False | _ => True end.
(** The mentions of an expression from left to right, not looking into subqueries. *)
Inductive occurs : node -> list (option (list N * list N)) -> Prop :=
| occ_column : forall t n, occurs (Column t n) [Some (t, n)]
| occ_subquery : forall q, occurs (Subquery q) [None]
| occ_match : forall cols a l, occurs a l -> occurs (Match cols a) (map Some cols ++ l)
| occ_inner : forall n l, inner n -> occurs_all (kids n) l -> occurs n l
with occurs_all : list node -> list (option (list N * list N)) -> Prop :=
| occ_nil : occurs_all [] []
| occ_cons : forall x l xs ls, occurs x l -> occurs_all xs ls -> occurs_all (x :: xs) (l ++ ls).

(** [m] is a part of expression [n] outside its subqueries. *)
Inductive part : node -> node -> Prop :=
| part_self : forall n, part n n
| part_kid : forall n k m, (forall q, n <> Subquery q) -> In k (kids n) -> part k m -> part n m.

(** Expressions that cannot occur in a query or are of unknown type *)
Definition offends (n : node) : Prop :=
  match n with
  | E0 TableNameExpr | E0 DefaultExpr | E0 ValuesExpr | E0 MaxValueExpr | E0 OtherExpr => True
  | Select _ _ _ _ _ _ _ _ _ _ | SetOpr _ | Cte _ _ | SelectField _ _ _ | Limit _ _
  | TableSource _ _ | TableName _ _ | Join _ _ _ _ => True
  | _ => False
  end.
(** x COLLATE c; @v := x; GROUP_CONCAT(.. ORDER BY x) *)
Definition lossy (n : node) : Prop :=
  match n with
  | E1 SetCollationExpr _ => True
  | UserVar Nil => False
  | UserVar _ => True
  | Aggregate _ (_ :: _) => True
  | _ => False
  end.
Definition lossless (e : node) : Prop := forall m, part e m -> ~ lossy m.
Definition no_match (e : node) : Prop := forall m, part e m -> forall cols a, m <> Match cols a.

(** A mention as the builder sees it: names in lower case. *)
Definition as_fcol (low : rune -> rune) (ty : field_type) (m : option (list N * list N)) : fcol :=
  match m with
  | Some (t, n) => mk_fcol (map low t) (map low n) ty
  | None => mk_fcol [] [] FSubquery
  end.

(** ** SELECT statements *)
(** Tables of a FROM clause with alias (a derived table has no name) and the
    conditions of its joins, both from left to right. *)
Inductive from_clause : node -> list (list N * option (list N)) -> list node -> Prop :=
| from_none : from_clause Nil [] []
| from_table : forall n a, from_clause (TableSource (TableName [] n) a) [(a, Some n)] []
| from_derived : forall c f fr w g h ws o l v a,
    from_clause (TableSource (Select c f fr w g h ws o l v) a) [(a, None)] []
| from_paren : forall l r on u a ts ons,
    from_clause (Join l r on u) ts ons -> from_clause (TableSource (Join l r on u) a) ts ons
| from_join : forall l r on u t1 t2 o1 o2,
    from_clause l t1 o1 -> from_clause r t2 o2 ->
    from_clause (Join l r on u) (t1 ++ t2) (o1 ++ o2 ++ match on with Nil => [] | _ => [on] end).
Definition as_table (low : rune -> rune) (t : list N * option (list N)) : table :=
  mk_table (map low (fst t)) (match snd t with Some n => map low n | None => [] end) false.

(** One place of a statement where columns are used. *)
Inductive item := StarItem (wild as_ : gostring) | ExprItem (ty : field_type) (as_ : gostring) (e : node).
Definition field_item (n : node) : list item :=
  match n with
  | SelectField Nil wild as_ => [StarItem wild as_]
  | SelectField e _ as_ => [ExprItem FReference as_ e]
  | _ => []
  end.
Definition opt_item (ty : field_type) (e : node) : list item :=
  match e with Nil => [] | _ => [ExprItem ty [] e] end.
Definition limit_items (l : node) : list item :=
  match l with Limit c o => [ExprItem FReference [] c; ExprItem FReference [] o] | _ => [] end.
(** Conditions: WHERE and the ON of joins; everything else is a reference. *)
Definition items (ons : list node) (s : node) : list item :=
  match s with
  | Select _ fields _ wh g h _ o l _ =>
      flat_map field_item fields ++ map (ExprItem FCondition []) ons ++ opt_item FCondition wh ++
      map (ExprItem FReference []) g ++ opt_item FReference h ++ map (ExprItem FReference []) o ++ limit_items l
  | _ => []
  end.
Definition select_from (s : node) : node :=
  match s with Select _ _ from _ _ _ _ _ _ _ => from | _ => Nil end.
Definition item_field (low : rune -> rune) (i : item) (f : field) : Prop :=
  match i with
  | StarItem wild as_ => f = mk_field (map low as_) [mk_fcol (map low wild) [] FStar]
  | ExprItem ty as_ e =>
      f_as f = map low as_ /\ exists l, occurs e l /\ Permutation (f_cols f) (map (as_fcol low ty) l) /\
      (no_match e -> f_cols f = map (as_fcol low ty) l)
  end.
Definition item_expr (i : item) : node := match i with StarItem _ _ => Nil | ExprItem _ _ e => e end.

(** A use of a column outside subqueries: qualifier, name (empty for a star), kind *)
Definition uses (s : node) (t n : gostring) (ty : field_type) : Prop :=
  exists ts ons, from_clause (select_from s) ts ons /\
  exists i, In i (items ons s) /\
    match i with
    | StarItem wild _ => t = wild /\ n = [] /\ ty = FStar
    | ExprItem ty' _ e => ty = ty' /\ exists l, occurs e l /\ In (Some (t, n)) l
    end.

(** [m] occurs anywhere inside [n], subqueries included. *)
Inductive inside : node -> node -> Prop :=
| inside_self : forall n, inside n n
| inside_kid : forall n k m, In k (kids n) -> inside k m -> inside n m.
Definition is_select (n : node) : Prop := match n with Select _ _ _ _ _ _ _ _ _ _ => True | _ => False end.
Definition has_with (n : node) : Prop := match n with Select (_ :: _) _ _ _ _ _ _ _ _ _ => True | _ => False end.
Definition has_values (n : node) : Prop := match n with Select _ _ _ _ _ _ _ _ _ true => True | _ => False end.
Definition has_window (n : node) : Prop := match n with Select _ _ _ _ _ _ (_ :: _) _ _ _ => True | _ => False end.
(** What makes a SELECT unsupported by itself: an odd expression, WINDOW, or an
    odd FROM clause (database-qualified table, UNION in parentheses, ...) *)
Definition unsupported (s : node) : Prop :=
  has_window s \/ (~ exists ts ons, from_clause (select_from s) ts ons) \/
  exists ts ons, from_clause (select_from s) ts ons /\
    exists i m, In i (items ons s) /\ part (item_expr i) m /\ offends m.
Definition lossless_select (s : node) : Prop :=
  forall ts ons, from_clause (select_from s) ts ons -> forall i, In i (items ons s) -> lossless (item_expr i).

(** ** Tables read *)
Definition ctes_of (n : node) : list node :=
  match n with Select ctes _ _ _ _ _ _ _ _ _ => ctes | _ => [] end.
Definition names_of (ctes : list node) (c : gostring) : Prop := exists q, In (Cte c q) ctes.
(** [reads low hidden n t]: some table source inside [n] names [t], which no
    surrounding WITH clause defines ([hidden]: names of those around [n]). *)
Inductive reads (low : rune -> rune) : (gostring -> Prop) -> node -> gostring -> Prop :=
| reads_here : forall (hidden : gostring -> Prop) name a,
    ~ (exists c, hidden c /\ map low c = map low name) ->
    reads low hidden (TableSource (TableName [] name) a) (map low name)
| reads_kid : forall hidden n k t, In k (kids n) ->
    reads low (fun c => hidden c \/ names_of (ctes_of n) c) k t -> reads low hidden n t.
(** The scoping of SQL (without RECURSIVE): a WITH query sees the names defined
    before it only. *)
Inductive really_reads (low : rune -> rune) : (gostring -> Prop) -> node -> gostring -> Prop :=
| rr_here : forall (hidden : gostring -> Prop) name a,
    ~ (exists c, hidden c /\ map low c = map low name) ->
    really_reads low hidden (TableSource (TableName [] name) a) (map low name)
| rr_cte : forall (hidden : gostring -> Prop) n before k after t, ctes_of n = before ++ k :: after ->
    really_reads low (fun c => hidden c \/ names_of before c) k t -> really_reads low hidden n t
| rr_kid : forall (hidden : gostring -> Prop) n k t, In k (skipn (length (ctes_of n)) (kids n)) ->
    really_reads low (fun c => hidden c \/ names_of (ctes_of n) c) k t -> really_reads low hidden n t.

(** A table source the table collector refuses *)
Definition bad_source (n : node) : Prop :=
  match n with
  | TableSource (TableName [] _) _ => False
  | TableSource (Select _ _ _ _ _ _ _ _ _ _) _ => False
  | TableSource _ _ => True
  | _ => False
  end.
