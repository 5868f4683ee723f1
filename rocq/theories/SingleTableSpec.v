(** Which nodes of a plan begin a new single-table result. *)
From Coq Require Import String List NArith ZArith QArith Bool Lia Arith.
From Verif Require Import Base ExplainTree SingleTable.
Import ListNotations.

Definition table_of (t : tree explain_node) : gostring := en_table (t_val t).

(** Somewhere in the tree a node and its child name the same table. *)
Inductive same_pair : tree explain_node -> Prop :=
| sp_here : forall n cs c, In c cs -> en_table n <> [] -> table_of c = en_table n -> same_pair (Node n cs)
| sp_below : forall n cs c, In c cs -> same_pair c -> same_pair (Node n cs).
(** A child that continues its parent's table, or contains such a continuation of
    any table. *)
Definition continues (p : explain_node) (c : tree explain_node) : Prop :=
  table_of c = en_table p \/ same_pair c.

(** The subtrees of a tree, each with its parent and its elder siblings. *)
Inductive subtree (t : tree explain_node)
  : option (explain_node * list (tree explain_node)) -> tree explain_node -> Prop :=
| sub_top : subtree t None t
| sub_child : forall o p elder c younger, subtree t o (Node p (elder ++ c :: younger)) ->
    subtree t (Some (p, elder)) c.

(** The node begins a result: it names a table, and it is not simply the
    continuation of its parent's. *)
Definition begins_result (o : option (explain_node * list (tree explain_node))) (c : tree explain_node) : Prop :=
  table_of c <> [] /\
  match o with
  | None => True
  | Some (p, elder) => table_of c <> en_table p \/ Exists (continues p) elder
  end.
Definition result_head (t : tree explain_node) (n : explain_node) : Prop :=
  exists o c, subtree t o c /\ begins_result o c /\ t_val c = n.

(** The plans the function cannot digest: a node that begins a result has a child
    that continues (anything), and a later child containing a continuation. *)
Definition indigestible (t : tree explain_node) : Prop :=
  exists o p elder c younger, subtree t o (Node p (elder ++ c :: younger)) /\
    begins_result o (Node p (elder ++ c :: younger)) /\
    Exists (continues p) elder /\ same_pair c.
