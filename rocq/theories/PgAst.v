(** The syntax trees of github.com/auxten/postgresql-parser (package tree, not part
    of the repository) as far as SELECT statements are concerned, and the model of
    database/postgres/pservice/ast/ast_walker.go.  Go's interfaces tree.Expr,
    tree.TableExpr, tree.SelectStatement etc. are one type here; [Nil] is the nil
    interface (or a nil pointer).  The numbers at [Subquery] and [Select] are the
    addresses of these nodes. *)
From Coq Require Import String List NArith Bool Lia.
From Verif Require Import Base.
Import ListNotations.

(** Expressions without subexpressions. *)
(** the parser's package tree; no lines in /repo *)
Inductive atag :=
| Const          (* NumVal, StrVal, Placeholder and every Datum without parts, including NULL *)
| DefaultVal | PartitionMaxVal | PartitionMinVal
| TypedDummy | IndexedVar | CommentOnColumn
| OtherExpr      (* any expression type the collector does not know *).
(** the parser's package tree; no lines in /repo *)
Inductive etag1 := ParenExpr | NotExpr | UnaryExpr | CastExpr | AnnotateTypeExpr | CollateExpr
  | IsOfTypeExpr | IndirectionExpr | ArrayFlatten.
(** the parser's package tree; no lines in /repo *)
Inductive etag2 := BinaryExpr | AndExpr | OrExpr | ComparisonExpr | NullIfExpr.
(** the parser's package tree; no lines in /repo *)
Inductive etag3 := RangeCond | IfErrExpr | IfExpr.

(** the parser's package tree; no lines in /repo *)
Inductive node :=
| Nil
| A0 (t : atag)
| DSeq (ds : list node)                                  (* DTuple, DArray, DOidWrapper *)
| E1 (t : etag1) (e : node)
| E2 (t : etag2) (l r : node)
| E3 (t : etag3) (a b c : node)
| Coalesce (es : list node)
| Tuple (es : list node)
| Array (es : node)                                      (* es = Exprs .. *)
| Exprs (es : list node)                                 (* tree.Exprs *)
| Case (e : node) (whens : list node) (els : node)       (* whens: cond, val, cond, val, .. *)
| Func (args filter window : node) (order : list node)   (* args = Exprs ..; window = Nil or WindowDef *)
| WindowDef (partitions : node) (order : list node) (frame : node)
| WindowFrame (start_ end_ : node)
| FrameBound (offset : node)
| TupleStar (e : node)
| ColumnAccess (e : node) (col : gostring)
| Name (star : bool) (parts : list gostring)             (* UnresolvedName: column, table, schema, catalog *)
| Star                                                   (* UnqualifiedStar *)
| AllColumns (parts : list gostring)                     (* AllColumnsSelector *)
| ColumnItem (parts : list gostring) (col : gostring)
| Subquery (id : nat) (sel : node)
| ParenSelect (sel : node)
| Select (id : nat) (with_ sel order limit : node)
| SelectClause (exprs from where_ having : node) (distinct_on group_by : list node) (window : bool)
| SelectExprs (es : list node)
| SelectExpr (e : node) (as_ : gostring)
| From (asof : node) (tables : list node)
| AsOf (e : node)
| Where (e : node)                                       (* WHERE and HAVING *)
| OrderBy (l : list node)
| Order (e table : node)
| Limit (count offset : node)
| With (ctes : list node)
| CTE (name : gostring) (stmt : node)
| Union (l r : node)
| Values (rows : list node)
| Aliased (e : node) (as_ : gostring) (lateral : bool)   (* AliasedTableExpr *)
| ParenTable (t : node)                                  (* ParenTableExpr *)
| Join (l r cond : node)
| On (e : node)
| UsingCols (cols : list gostring)
| Natural
| RowsFrom (items : list node)
| TableName (catalog schema name : gostring)
| ObjectName (parts : list gostring)                     (* UnresolvedObjectName *)
| OtherNode.                                             (* StatementSource, TableRef, ValuesClauseWithNames, .. *)

(** Everything a node has below it. *)
(** the parser's package tree; no lines in /repo *)
Definition children (n : node) : list node :=
  match n with
  | Nil | A0 _ | Name _ _ | Star | AllColumns _ | ColumnItem _ _ | UsingCols _ | Natural
  | TableName _ _ _ | ObjectName _ | OtherNode => []
  | DSeq l | Coalesce l | Tuple l | Exprs l | SelectExprs l | OrderBy l | With l | Values l | RowsFrom l => l
  | E1 _ e | Array e | FrameBound e | TupleStar e | ColumnAccess e _ | Subquery _ e | ParenSelect e
  | SelectExpr e _ | AsOf e | Where e | CTE _ e | Aliased e _ _ | ParenTable e | On e => [e]
  | E2 _ a b | WindowFrame a b | Order a b | Limit a b | Union a b => [a; b]
  | E3 _ a b c | Join a b c => [a; b; c]
  | Case e ws el => e :: el :: ws
  | Func a f w o => w :: a :: f :: o
  | WindowDef p o f => p :: f :: o
  | Select _ w s o l => [w; o; l; s]
  | SelectClause es f w h d g _ => es :: w :: h :: f :: d ++ g
  | From a ts => a :: ts
  end.

Fixpoint node_ind' (P : node -> Prop) (H : forall n, Forall P (children n) -> P n) (n : node) {struct n} : P n.
Proof.
  refine (let go := fix go (l : list node) : Forall P l :=
    match l with [] => Forall_nil P | x :: l' => Forall_cons x (node_ind' P H x) (go l') end in _).
  apply H. destruct n; simpl;
    repeat first [apply Forall_nil | (apply Forall_cons; [apply (node_ind' P H)|]) | (apply Forall_app; split) | apply go].
Defined.

(** ast_walker.go: node types with a case in the switch at 79-253, and those
    skipped before it because they are nil (60-68) or Datums (69-76). *)
Definition known (n : node) : bool :=
  match n with
  | A0 Const | DSeq _ | Nil => true
  | A0 _ => false
  | E1 (IsOfTypeExpr | IndirectionExpr | ArrayFlatten) _ => false
  | E3 (IfErrExpr | IfExpr) _ _ _ => false
  | AllColumns _ | ColumnItem _ _ | ParenTable _ | UsingCols _ | Natural | ObjectName _ | OtherNode => false
  | _ => true
  end.

(** A child visited only if the pointer is not nil *)
(** ast_walker.go:79-253, wherever a pointer is compared with nil *)
Definition opt (n : node) : list node := match n with Nil => [] | _ => [n] end.
(** The nodes the walker goes on with, in its order (79-253) *)
Definition kids (n : node) : list node :=
  match n with
  | Aliased e _ _ => [e]                          (* 80-81 *)
  | E1 (IsOfTypeExpr | IndirectionExpr | ArrayFlatten) _ => []
  | E1 _ e => [e] (* 84-85, 99-100, 136-137, 149-150, 211-212, 248-249 *)
  | Array e => [e]                                (* 86-87 *)
  | AsOf e => [e]                                 (* 88-89 *)
  | E2 _ l r => [l; r] (* 82-83, 90-91, 106-107, 147-148, 246-247 *)
  | Case e ws el => e :: el :: ws                 (* 92-96 *)
  | E3 RangeCond a b c => [a; b; c]               (* 97-98 *)
  | E3 _ _ _ _ => []
  | Coalesce es => es (* 101-104 *)
  | CTE _ s => [s] (* 115-116 *)
  | Exprs es => es (* 118-121 *)
  | From a ts => a :: ts (* 123-127 *)
  | Func a f w _ => opt w ++ [a; f] (* 128-132 *)
  | Join l r c => [l; r; c] (* 134-135 *)
  | On e => [e] (* 139-140 *)
  | Order e t => [e; t] (* 141-142 *)
  | OrderBy l => l (* 143-146 *)
  | ParenSelect s => [s] (* 151-152 *)
  | RowsFrom l => l (* 153-156 *)
  | Select _ w s o l => opt w ++ opt o ++ opt l ++ [s] (* 157-167 *)
  | Limit c _ => [c] (* 168-169 *)
  | SelectClause es f w h d g _ => [es] ++ opt w ++ opt h ++ d ++ g ++ [f] (* 170-188 *)
  | SelectExpr e _ => [e] (* 189-190 *)
  | SelectExprs l => l (* 191-194 *)
  | Subquery _ s => [s] (* 200-201 *)
  | Tuple l => l (* 207-210 *)
  | Union l r => [l; r] (* 214-215 *)
  | Values rows => rows (* 218-221 *)
  | Where e => [e] (* 222-223 *)
  | WindowDef p _ f => [p] ++ opt f (* 228-232 *)
  | WindowFrame s e => opt s ++ opt e (* 233-239 *)
  | FrameBound e => [e] (* 240-241 *)
  | With l => l (* 242-245 *)
  | TupleStar e => [e]                            (* 250-251 *)
  | ColumnAccess e _ => [e]                       (* 252-253 *)
  | _ => []
  end.
Lemma kids_children : forall n, incl (kids n) (children n).
Proof.
  assert (HO : forall n, incl (opt n) [n]) by (intros []; intros x Hx; simpl in *; tauto).
  intros n x Hx. destruct n; simpl in *; auto; try tauto;
    try (destruct t; simpl in *; tauto);
    repeat rewrite in_app_iff in Hx; simpl in Hx;
    repeat match goal with H : _ \/ _ |- _ => destruct H | H : In _ (opt _) |- _ => apply HO in H; simpl in H end;
    subst; rewrite ?in_app_iff; tauto.
Qed.

(** ast_walker.go:41-273: Walk for one statement.  [enter] and [leave] are the
    collector's methods; both collectors always return false, so the breaks are
    never taken.  The second component are UnknownNodes (254-257). *)
Section Walk.
  Context {S : Type} (enter leave : node -> S -> outcome S).
  (** ast_walker.go:254-257 *)
  Definition with_unknown (n : node) (u : list node) : list node := if known n then u else u ++ [n].
  (** ast_walker.go:41-273 *)
  Fixpoint walk (n : node) (s : S) (u : list node) {struct n} : outcome (S * list node) :=
    let many := fix many (l : list node) (s : S) (u : list node) {struct l} : outcome (S * list node) :=
      match l with [] => Ok (s, u) | x :: l' => do r <- walk x s u; many l' (fst r) (snd r) end in
    let walk_opt x s u := match x with Nil => Ok (s, u) | _ => walk x s u end in
    do s <- enter n s;
    do r <- match n with
      | Aliased e _ _ | Array e | AsOf e | CTE _ e | On e | ParenSelect e | SelectExpr e _ | Subquery _ e | Where e
      | FrameBound e | TupleStar e | ColumnAccess e _ | Limit e _ => walk e s u
      | E1 t e =>
          match t with
          | IsOfTypeExpr | IndirectionExpr | ArrayFlatten => Ok (s, with_unknown n u)
          | _ => walk e s u
          end
      | E2 _ a b | Order a b | Union a b => do r <- walk a s u; walk b (fst r) (snd r)
      | E3 t a b c =>
          match t with
          | RangeCond => do r <- walk a s u; do r <- walk b (fst r) (snd r); walk c (fst r) (snd r)
          | _ => Ok (s, with_unknown n u)
          end
      | Join a b c => do r <- walk a s u; do r <- walk b (fst r) (snd r); walk c (fst r) (snd r)
      | Case e ws el => do r <- walk e s u; do r <- walk el (fst r) (snd r); many ws (fst r) (snd r)
      | Coalesce l | Exprs l | OrderBy l | RowsFrom l | SelectExprs l | Tuple l | Values l | With l => many l s u
      | From a ts => do r <- walk a s u; many ts (fst r) (snd r)
      | Func a f w _ => do r <- walk_opt w s u; do r <- walk a (fst r) (snd r); walk f (fst r) (snd r)
      | Select _ w b o l =>
          do r <- walk_opt w s u; do r <- walk_opt o (fst r) (snd r); do r <- walk_opt l (fst r) (snd r);
          walk b (fst r) (snd r)
      | SelectClause es f w h d g _ =>
          do r <- walk es s u; do r <- walk_opt w (fst r) (snd r); do r <- walk_opt h (fst r) (snd r);
          do r <- many d (fst r) (snd r); do r <- many g (fst r) (snd r); walk f (fst r) (snd r)
      | WindowDef p _ f => do r <- walk p s u; walk_opt f (fst r) (snd r)
      | WindowFrame a b => do r <- walk_opt a s u; walk_opt b (fst r) (snd r)
      | _ => Ok (s, with_unknown n u)
      end;
    do s <- leave n (fst r);
    Ok (s, snd r).
  (** ast_walker.go:41-273 *)
  Fixpoint walk_all (l : list node) (s : S) (u : list node) {struct l} : outcome (S * list node) :=
    match l with [] => Ok (s, u) | x :: l' => do r <- walk x s u; walk_all l' (fst r) (snd r) end.
  Lemma obind_assoc : forall A B C (x : outcome A) (f : A -> outcome B) (g : B -> outcome C),
      (do y <- (do z <- x; f z); g y) = (do z <- x; do y <- f z; g y).
  Proof. intros A B C [a|m|] f g; reflexivity. Qed.
  Lemma walk_all_app : forall a b s u, walk_all (a ++ b) s u = (do r <- walk_all a s u; walk_all b (fst r) (snd r)).
  Proof. induction a as [|x a IH]; intros b s u; simpl; auto. rewrite obind_assoc. destruct (walk x s u); simpl; auto. Qed.
  Lemma walk_all_1 : forall x s u, walk_all [x] s u = walk x s u.
  Proof. intros. simpl. destruct (walk x s u) as [[s' u']|m|]; reflexivity. Qed.
  Lemma walk_kids : forall n s u, walk n s u =
    (do s <- enter n s; do r <- walk_all (kids n) s (with_unknown n u); do s <- leave n (fst r); Ok (s, snd r)).
  Proof.
    intros n s u.
    assert (HM : forall l s u,
      (fix many (l : list node) (s : S) (u : list node) {struct l} : outcome (S * list node) :=
        match l with [] => Ok (s, u) | x :: l' => do r <- walk x s u; many l' (fst r) (snd r) end) l s u = walk_all l s u)
      by (induction l as [|x l IH]; intros; simpl; auto; destruct (walk x s0 u0); simpl; auto).
    assert (HO : forall x s u, match x with Nil => Ok (s, u) | _ => walk x s u end = walk_all (opt x) s u).
    { intros x s' u'. destruct x; try (simpl opt; rewrite walk_all_1; reflexivity). reflexivity. }
    assert (HC : forall x l s u, walk_all (x :: l) s u = (do r <- walk x s u; walk_all l (fst r) (snd r))) by reflexivity.
    destruct n; cbn [walk]; destruct (enter _ s) as [s'|m|]; cbn [obind]; try reflexivity;
      match goal with |- obind ?x _ = obind ?y _ => replace y with x; [reflexivity|] end;
      unfold with_unknown; cbn [kids known];
      try (destruct t; cbn [kids known]; try reflexivity);
      repeat first [reflexivity | rewrite HO | rewrite HM | rewrite walk_all_app | rewrite walk_all_1 | rewrite HC
        | progress cbn [obind fst snd app]
        | match goal with |- obind ?x _ = obind ?x _ => destruct x as [[? ?]| |]; cbn [obind fst snd]; try reflexivity end
        | rewrite obind_assoc].
  Qed.
End Walk.
