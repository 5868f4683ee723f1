(** What the PostgreSQL collectors are supposed to find in a statement. *)
From Coq Require Import String List NArith Bool Lia Arith Permutation.
From Verif Require Import Base IndexText IndexBuild TableFields PgAst.
Import ListNotations.

(** ** Addresses and positions *)
(** [m] is [n] or somewhere below it. *)
Inductive within : node -> node -> Prop :=
| within_self : forall n, within n n
| within_child : forall n k m, In k (children n) -> within k m -> within n m.
(** A tree has every address at most once. *)
Inductive address := ASelect (id : nat) | ASubquery (id : nat).
Definition own_address (n : node) : list address :=
  match n with Select id _ _ _ _ => [ASelect id] | Subquery id _ => [ASubquery id] | _ => [] end.
Inductive addresses : node -> list address -> Prop :=
| addrs_node : forall n l, addresses_all (children n) l -> addresses n (own_address n ++ l)
with addresses_all : list node -> list address -> Prop :=
| addrs_nil : addresses_all [] []
| addrs_cons : forall x l a b, addresses x a -> addresses_all l b -> addresses_all (x :: l) (a ++ b).
Definition distinct (n : node) : Prop := forall l, addresses n l -> NoDup l.

(** ** Expressions *)
(** What an expression refers to *)
Inductive mention :=
| MCol (t n : gostring)              (* [t.]n *)
| MStar (t : gostring)               (* [t.]star *)
| MItem (t n : gostring)             (* a column already resolved by the parser; never in parser output *)
| MSub (id : nat) (q : node).        (* a subquery: its SELECT *)
Definition leaf (e : node) : option (list mention) :=
  match e with
  | Name true parts => Some [MStar (nth 1 parts [])]
  | Name false parts => Some [MCol (nth 1 parts []) (nth 0 parts [])]
  | Star => Some [MStar []]
  | AllColumns parts => Some [MStar (nth 0 parts [])]
  | ColumnItem parts c => Some [MItem (nth 0 parts []) c]
  | TupleStar (Name _ parts) => Some [MStar (nth 0 parts [])]                 (* (t).star *)
  | ColumnAccess (Name _ parts) c => Some [MCol (nth 0 parts []) c]           (* (t).c *)
  | Subquery _ (ParenSelect (Select id w b o l)) => Some [MSub id (Select id w b o l)]
  | Subquery _ _ => Some []
  | _ => None
  end.
Definition is_star (n : node) : bool := match n with Star => true | _ => false end.
Definition items_of (n : node) : list node := match n with Exprs l => l | _ => [] end.
Definition order_exprs (l : list node) : list node := flat_map (fun o => match o with Order e _ => [e] | _ => [] end) l.
Definition bound_offset (n : node) : list node := match n with FrameBound e => [e] | _ => [] end.
Definition window_operands (w : node) : list node :=
  match w with
  | WindowDef p o (WindowFrame s e) => items_of p ++ order_exprs o ++ bound_offset s ++ bound_offset e
  | WindowDef p o _ => items_of p ++ order_exprs o
  | _ => []
  end.
(** The operands in source order; the star of count(star) is none. *)
Definition operands (e : node) : list node :=
  match e with
  | E1 _ a | TupleStar a | ColumnAccess a _ => [a]
  | E2 _ a b => [a; b]
  | E3 _ a b c => [a; b; c]
  | Case v ws el => v :: ws ++ [el]
  | DSeq l | Coalesce l | Tuple l | Array (Exprs l) => l
  | Func a f w o => filter (fun x => negb (is_star x)) (items_of a) ++ f :: window_operands w ++ order_exprs o
  | _ => []
  end.
(** Everything mentioned outside subqueries, in source order *)
Inductive occurs : node -> list mention -> Prop :=
| occ_leaf : forall e l, leaf e = Some l -> occurs e l
| occ_inner : forall e l, leaf e = None -> occurs_all (operands e) l -> occurs e l
with occurs_all : list node -> list mention -> Prop :=
| occ_nil : occurs_all [] []
| occ_cons : forall x xs a b, occurs x a -> occurs_all xs b -> occurs_all (x :: xs) (a ++ b).
Inductive part : node -> node -> Prop :=
| part_self : forall e, part e e
| part_in : forall e k m, leaf e = None -> In k (operands e) -> part k m -> part e m.
Definition subqueries (l : list mention) : list (nat * node) :=
  flat_map (fun m => match m with MSub id q => [(id, q)] | _ => [] end) l.

Section Pg.
  Context (norm : gostring -> gostring) (target : gostring).
  (** A name with a schema other than [target], or a catalog; [pos] is where the schema stands *)
  Definition foreign (pos : nat) (parts : list gostring) : Prop :=
    length parts > S pos \/ (length parts = S pos /\ nth pos parts [] <> target).
  (** What makes an expression unsupported by itself *)
  Definition offends (e : node) : Prop :=
    match e with
    | Nil | E1 _ _ | E2 _ _ _ | E3 _ _ _ _ | Case _ _ _ | DSeq _ | Coalesce _ | Tuple _ | Array (Exprs _) | Func _ _ _ _ | Star => False
    | A0 (DefaultVal | PartitionMaxVal | PartitionMinVal | OtherExpr) => True
    | A0 _ => False
    | Name _ parts => foreign 2 parts
    | AllColumns parts | ColumnItem parts _ => foreign 1 parts
    | TupleStar (Name _ parts) | ColumnAccess (Name _ parts) _ => foreign 1 parts
    | TupleStar _ | ColumnAccess _ _ => False
    | Subquery _ (ParenSelect (Select _ _ _ _ _)) => False
    | _ => True
    end.
  (** A window whose frame has only one bound: ROWS UNBOUNDED PRECEDING *)
  Definition half_frame (e : node) : Prop :=
    match e with
    | Func _ _ (WindowDef _ _ Nil) _ | Func _ _ (WindowDef _ _ (WindowFrame (FrameBound _) (FrameBound _))) _ => False
    | Func _ _ (WindowDef _ _ _) _ => True
    | _ => False
    end.
  (** How a mention is recorded *)
  Definition as_fcol (ty : field_type) (m : mention) : fcol :=
    match m with
    | MCol t n => mk_fcol t n ty
    | MStar t => mk_fcol t [] FStar
    | MItem t n => mk_fcol t (norm n) FReference
    | MSub _ _ => mk_fcol [] [] FSubquery
    end.

  (** ** The clauses of a SELECT *)
  Definition clause_item : Type := field_type * gostring * node.      (* kind, alias, expression *)
  Inductive source :=
  | STable (name as_ : gostring)
  | SDerived (id : nat) (as_ : gostring) (lateral : bool).
  (** One item of FROM: its sources, the expressions in it, its derived tables *)
  Inductive from_item : node -> list source -> list clause_item -> list (nat * node) -> Prop :=
  | from_table : forall schema name as_ lateral, norm schema = [] \/ norm schema = target ->
      from_item (Aliased (TableName [] schema name) as_ lateral) [STable name as_] [] []
  | from_derived : forall sid id w b o l as_ lateral,
      from_item (Aliased (Subquery sid (ParenSelect (Select id w b o l))) as_ lateral)
        [SDerived id as_ lateral] [] [(id, Select id w b o l)]
  | from_rows : forall rows, from_item (RowsFrom rows) [] (map (fun e => (FReference, [], e)) rows) []
  | from_rows_as : forall rows as_ lateral,
      from_item (Aliased (RowsFrom rows) as_ lateral) [] (map (fun e => (FReference, [], e)) rows) []
  | from_join : forall l r c s1 s2 e1 e2 d1 d2 es,
      from_item l s1 e1 d1 -> from_item r s2 e2 d2 -> join_cond c es ->
      from_item (Join l r c) (s1 ++ s2) (e1 ++ e2 ++ es) (d1 ++ d2)
  | from_join_as : forall l r c as_ lateral ss es ds,
      from_item (Join l r c) ss es ds -> from_item (Aliased (Join l r c) as_ lateral) ss es ds
  with join_cond : node -> list clause_item -> Prop :=
  | cond_none : join_cond Nil []
  | cond_on : forall e, join_cond (On e) [(FCondition, [], e)].
  Inductive from_items : list node -> list (list source) -> list clause_item -> list (nat * node) -> Prop :=
  | froms_nil : from_items [] [] [] []
  | froms_cons : forall x xs ss sss e es d ds, from_item x ss e d -> from_items xs sss es ds ->
      from_items (x :: xs) (ss :: sss) (e ++ es) (d ++ ds).
  Definition where_item (ty : field_type) (w : node) : list clause_item :=
    match w with Where e => [(ty, [], e)] | _ => [] end.
  (** All expressions of a SELECT outside subqueries and their kind *)
  Definition clauses (xs : list node) (froms : list clause_item) (wh hv : node) (g : list node) (o l : node) : list clause_item :=
    map (fun x => match x with SelectExpr e as_ => (FReference, as_, e) | _ => (FReference, [], x) end) xs ++
    froms ++ where_item FCondition wh ++ map (fun e => (FReference, [], e)) g ++ where_item FReference hv ++
    match o with OrderBy os => map (fun e => (FReference, [], e)) (order_exprs os) | _ => [] end ++
    match l with Limit c off => [(FReference, [], c); (FReference, [], off)] | _ => [] end.
  Definition clause_field (i : clause_item) (f : field) : Prop :=
    let '(ty, as_, e) := i in
    f_as f = as_ /\ exists l, occurs e l /\ f_cols f = map (as_fcol ty) l.
  Definition clause_subqueries (i : clause_item) (qs : list (nat * node)) : Prop :=
    exists l, occurs (snd i) l /\ qs = subqueries l.

  (** ** The scope of a SELECT.  [nm] names subqueries and derived tables. *)
  Section Tree.
    Context (nm : nat -> gostring).
    Definition as_table (s : source) : table :=
      match s with
      | STable name as_ => mk_table (norm as_) name false
      | SDerived id as_ lateral => mk_table (norm as_) (nm id) lateral
      end.
    Inductive tree_of : gostring -> node -> scope -> Prop :=
    | tree_select : forall name id w xs a froms wh hv d g win o l sss es ds fields qss qs fscs subs,
        from_items froms sss es ds ->
        Forall2 clause_field (clauses xs es wh hv g o l) fields ->
        Forall2 clause_subqueries (clauses xs es wh hv g o l) qss -> Permutation qs (concat qss) ->
        trees_of qs fscs -> trees_of ds subs ->
        tree_of name (Select id w (SelectClause (SelectExprs xs) (From a froms) wh hv d g win) o l)
          (Scope name (filter (fun f => negb (Nat.eqb (length (f_cols f)) 0)) fields) fscs
             (map as_table (last sss [])) subs)
    with trees_of : list (nat * node) -> list scope -> Prop :=
    | trees_nil : trees_of [] []
    | trees_cons : forall q qs s ss, tree_of (nm (fst q)) (snd q) s -> trees_of qs ss -> trees_of (q :: qs) (s :: ss).
  End Tree.

  (** ** Statements that are fully supported *)
  Definition is_subquery (n : node) : Prop := match n with Subquery _ _ => True | _ => False end.
  (** The expression contains a subquery *)
  Definition has_subquery (e : node) : Prop := exists q, part e q /\ is_subquery q.
  (** A subquery in ORDER BY of a function or of its window (or inside a constant,
      which the parser never produces) *)
  Definition hidden_subquery (e : node) : Prop :=
    match e with
    | DSeq l => exists x, has_subquery x /\ In x l
    | Func _ _ w o =>
        exists x, has_subquery x /\ (In x (order_exprs o) \/ match w with WindowDef _ wo _ => In x (order_exprs wo) | _ => False end)
    | _ => False
    end.
  (** Arguments and windows have the types Go's structs prescribe. *)
  Definition shaped (e : node) : Prop :=
    match e with
    | Func a _ w _ => (exists l, a = Exprs l) /\ (w = Nil \/ exists p o f, w = WindowDef (Exprs p) o f)
    | _ => True
    end.
  Definition fine (e : node) : Prop :=
    forall m, part e m -> ~ offends m /\ ~ half_frame m /\ known m = true /\ ~ hidden_subquery m /\ shaped m.
  Definition optional (shape : node -> Prop) (n : node) : Prop := n = Nil \/ shape n.
  Inductive supported : node -> Prop :=
  | supported_select : forall id xs a froms wh hv g o l sss es ds,
      from_items froms sss es ds ->
      optional (fun n => n = AsOf Nil) a ->
      (forall x, In x xs -> exists e as_, x = SelectExpr e as_) ->
      optional (fun n => exists e, n = Where e) wh ->
      optional (fun n => exists e, n = Where e) hv ->
      optional (fun n => exists os, n = OrderBy os /\ forall x, In x os -> exists e t, x = Order e t /\ optional (fun n => exists c s t, n = TableName c s t) t) o ->
      optional (fun n => exists c off, n = Limit c off /\ ~ has_subquery off) l ->
      (forall i, In i (clauses xs es wh hv g o l) -> fine (snd i)) ->
      (forall i ms id q, In i (clauses xs es wh hv g o l) -> occurs (snd i) ms -> In (MSub id q) ms -> supported q) ->
      (forall id q, In (id, q) ds -> supported q) ->
      supported (Select id Nil (SelectClause (SelectExprs xs) (From a froms) wh hv [] g false) o l).
End Pg.
