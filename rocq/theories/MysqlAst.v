(** The syntax trees of the TiDB parser (github.com/pingcap/tidb/parser/ast, not
    part of the repository) as far as SELECT statements are concerned.  Go's
    interfaces ast.Node / ast.ExprNode / ast.ResultSetNode are one type here;
    [Nil] is the nil interface.
    None of the definitions in this file has lines in /repo of its own. *)
From Coq Require Import String List NArith Bool Lia.
From Verif Require Import Base.
Import ListNotations.

(** Expressions without subexpressions. *)
Inductive tag0 := PositionExpr | TrimDirectionExpr | TimeUnitExpr | GetFormatSelectorExpr | ValueExpr
  | ParamMarkerExpr | TableNameExpr | DefaultExpr | ValuesExpr | MaxValueExpr
  | OtherExpr (* any expression type the collector does not know *).
(** One, two, any number of subexpressions. *)
Inductive tag1 := IsNullExpr | IsTruthExpr | ParenthesesExpr | UnaryOperationExpr | FuncCastExpr
  | SetCollationExpr | ExistsSubqueryExpr.
Inductive tag2 := BinaryOperationExpr | CompareSubqueryExpr | PatternLikeExpr | PatternRegexpExpr.
Inductive tagn := RowExpr | FuncCallExpr.

(** Names are as written (CIStr.O). *)
Inductive node :=
| Nil
| E0 (t : tag0)
| E1 (t : tag1) (e : node)
| E2 (t : tag2) (l r : node)
| EN (t : tagn) (es : list node)
| Between (e l r : node)
| Case (value : node) (whens : list node) (els : node)
| When (e r : node)                                      (* WhenClause, only below Case *)
| UserVar (value : node)                                (* @v, or @v := value *)
| Aggregate (args order : list node)                     (* COUNT(x), GROUP_CONCAT(x ORDER BY y) *)
| Window (args partition order : list node)              (* WindowFuncExpr *)
| Subquery (query : node)
| Column (table name : gostring)
| PatternIn (e : node) (items : list node) (sel : node)
| Match (cols : list (gostring * gostring)) (against : node)
| Select (ctes : list node) (fields : list node) (from : node) (where_ : node) (group_by : list node)
    (having : node) (windows : list node) (order_by : list node) (limit : node) (values_ : bool)
| SetOpr (selects : list node)                           (* UNION, EXCEPT, INTERSECT *)
| Cte (name : gostring) (query : node)
| SelectField (e : node) (wild : gostring) (as_ : gostring)  (* e = Nil: [wild.*] or [*] *)
| Limit (count offset : node)
| TableSource (source : node) (as_ : gostring)
| TableName (schema name : gostring)
| Join (left right on : node) (using_ : list gostring).

(** Direct children in the order in which Accept visits them, which is source
    order (Match: the columns are no nodes of interest). *)
Definition kids (n : node) : list node :=
  match n with
  | Nil | E0 _ | Column _ _ | TableName _ _ => []
  | E1 _ e => [e]
  | E2 _ l r => [l; r]
  | EN _ es => es
  | Between e l r => [e; l; r]
  | Case v ws e => v :: ws ++ [e]
  | When e r => [e; r]
  | UserVar v => [v]
  | Aggregate args order => args ++ order
  | Window args p o => args ++ p ++ o
  | Subquery q => [q]
  | PatternIn e items sel => e :: items ++ [sel]
  | Match _ a => [a]
  | Select ctes fields from wh g h w o l _ => ctes ++ fields ++ [from; wh] ++ g ++ [h] ++ w ++ o ++ [l]
  | SetOpr l => l
  | Cte _ q => [q]
  | SelectField e _ _ => [e]
  | Limit c o => [c; o]
  | TableSource s _ => [s]
  | Join l r o _ => [l; r; o]
  end.

Fixpoint node_ind' (P : node -> Prop) (H : forall n, Forall P (kids n) -> P n) (n : node) {struct n} : P n.
Proof.
  assert (HL : forall l, (fix all (l : list node) : Prop := match l with [] => True | x :: l' => P x /\ all l' end) l -> Forall P l).
  { induction l as [|x l IHl]; [constructor|]. intros [H1 H2]. constructor; auto. }
  refine (let go := fix go (l : list node) : Forall P l :=
    match l with [] => Forall_nil P | x :: l' => Forall_cons x (node_ind' P H x) (go l') end in _).
  clear HL.
  apply H. destruct n; simpl.
  - constructor.
  - constructor.
  - constructor; [apply node_ind', H|constructor].
  - constructor; [apply node_ind', H|constructor; [apply node_ind', H|constructor]].
  - apply go.
  - constructor; [apply node_ind', H|constructor; [apply node_ind', H|constructor; [apply node_ind', H|constructor]]].
  - constructor; [apply node_ind', H|]. apply Forall_app. split; [apply go|constructor; [apply node_ind', H|constructor]].
  - constructor; [apply node_ind', H|constructor; [apply node_ind', H|constructor]].
  - constructor; [apply node_ind', H|constructor].
  - apply Forall_app. split; apply go.
  - apply Forall_app. split; [apply go|]. apply Forall_app. split; apply go.
  - constructor; [apply node_ind', H|constructor].
  - constructor.
  - constructor; [apply node_ind', H|]. apply Forall_app. split; [apply go|constructor; [apply node_ind', H|constructor]].
  - constructor; [apply node_ind', H|constructor].
  - apply Forall_app. split; [apply go|]. apply Forall_app. split; [apply go|].
    constructor; [apply node_ind', H|constructor; [apply node_ind', H|]].
    apply Forall_app. split; [apply go|]. constructor; [apply node_ind', H|].
    apply Forall_app. split; [apply go|]. apply Forall_app. split; [apply go|]. constructor; [apply node_ind', H|constructor].
  - apply go.
  - constructor; [apply node_ind', H|constructor].
  - constructor; [apply node_ind', H|constructor].
  - constructor; [apply node_ind', H|constructor; [apply node_ind', H|constructor]].
  - constructor; [apply node_ind', H|constructor].
  - constructor.
  - constructor; [apply node_ind', H|constructor; [apply node_ind', H|constructor; [apply node_ind', H|constructor]]].
Defined.

(** Accept of every node type: Enter, then the children, then Leave. *)
Section Walk.
  Context {S : Type} (enter leave : node -> S -> S).
  Fixpoint walk (n : node) (s : S) {struct n} : S :=
    let many := fix many (l : list node) (s : S) {struct l} : S :=
      match l with [] => s | x :: l' => many l' (walk x s) end in
    match n with
    | Nil => s
    | _ =>
        let s := enter n s in
        leave n match n with
        | Nil | E0 _ | Column _ _ | TableName _ _ => s
        | E1 _ e => walk e s
        | E2 _ l r => walk r (walk l s)
        | EN _ es => many es s
        | Between e l r => walk r (walk l (walk e s))
        | Case v ws e => walk e (many ws (walk v s))
        | When e r => walk r (walk e s)
        | UserVar v => walk v s
        | Aggregate args order => many order (many args s)
        | Window args p o => many o (many p (many args s))
        | Subquery q => walk q s
        | PatternIn e items sel => walk sel (many items (walk e s))
        | Match _ a => walk a s
        | Select ctes fields from wh g h w o l _ =>
            walk l (many o (many w (walk h (many g (walk wh (walk from (many fields (many ctes s))))))))
        | SetOpr l => many l s
        | Cte _ q => walk q s
        | SelectField e _ _ => walk e s
        | Limit c o => walk o (walk c s)
        | TableSource s' _ => walk s' s
        | Join l r o _ => walk o (walk r (walk l s))
        end
    end.
  Lemma walk_many : forall l s,
      (fix many (l : list node) (s : S) {struct l} : S :=
         match l with [] => s | x :: l' => many l' (walk x s) end) l s = fold_left (fun s k => walk k s) l s.
  Proof. induction l as [|x l IH]; intros s; simpl; auto. Qed.
  Lemma walk_kids : forall n s, n <> Nil -> walk n s = leave n (fold_left (fun s k => walk k s) (kids n) (enter n s)).
  Proof.
    intros n s Hn. destruct n; try congruence; simpl; rewrite ?walk_many; auto;
      repeat first [rewrite fold_left_app | simpl; rewrite ?walk_many]; auto.
  Qed.
End Walk.
