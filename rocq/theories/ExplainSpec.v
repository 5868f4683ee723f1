(** What plan trees are, independently of how they are built. *)
From Coq Require Import String List NArith ZArith QArith Bool Lia Arith.
From Verif Require Import Base Dec ExplainTree.
Import ListNotations.
Local Open Scope nat_scope.

(** Pre-order of a forest, with the depth of every node. *)
Fixpoint tree_depths {A} (d : nat) (t : tree A) : list (nat * A) :=
  match t with Node a cs => (d, a) :: flat_map (tree_depths (S d)) cs end.
Definition forest_depths {A} (d : nat) (f : list (tree A)) : list (nat * A) :=
  flat_map (tree_depths d) f.

(** Nodes in pre-order. *)
Fixpoint preorder {A} (t : tree A) : list A :=
  match t with Node a cs => a :: flat_map preorder cs end.

(** [parent_of f i] - every node of the forest, in pre-order, with the position of
    its parent in that order ([None] for the topmost nodes); [k] is the position
    of the first node, [up] the position of the parent of the forest. *)
Fixpoint tree_size {A} (t : tree A) : nat :=
  match t with Node _ cs => S (fold_right (fun t n => tree_size t + n) 0 cs) end.
Definition forest_size {A} (f : list (tree A)) : nat :=
  fold_right (fun t n => tree_size t + n) 0 f.
Fixpoint tree_parents {A} (up : option nat) (k : nat) (t : tree A) {struct t} : list (option nat) :=
  match t with
  | Node _ cs =>
      up :: (fix go (k' : nat) (cs : list (tree A)) : list (option nat) :=
               match cs with
               | [] => []
               | c :: cs' => tree_parents (Some k) k' c ++ go (k' + tree_size c) cs'
               end) (S k) cs
  end.
Fixpoint forest_parents {A} (up : option nat) (k : nat) (f : list (tree A)) : list (option nat) :=
  match f with
  | [] => []
  | c :: f' => tree_parents up k c ++ forest_parents up (k + tree_size c) f'
  end.

(** Line [i]'s nearest earlier line that is indented less. *)
Definition nearest_less (levels : list nat) (i : nat) (p : option nat) : Prop :=
  match p with
  | Some j => j < i /\ nth j levels 0 < nth i levels 0 /\
              (forall k, j < k -> k < i -> nth i levels 0 <= nth k levels 0)
  | None => forall k, k < i -> nth i levels 0 <= nth k levels 0
  end.

(** A sequence of depths that a forest can have: the first is 0 and none is more
    than one below its predecessor. *)
Definition no_jump (ds : list nat) : Prop :=
  forall i, i < length ds ->
    nth i ds 0 <= match i with 0 => 0 | S j => S (nth j ds 0) end.

(** Every child is indented more than its parent, and siblings are not indented
    more than the siblings before them. *)
Fixpoint falling (l : list nat) : Prop :=
  match l with
  | x :: ((y :: _) as r) => y <= x /\ falling r
  | _ => True
  end.
Inductive indented {A} (lev : A -> nat) : tree A -> Prop :=
| indented_node : forall a cs,
    Forall (fun c => lev a < lev (t_val c)) cs -> falling (map (fun c => lev (t_val c)) cs) ->
    Forall (indented lev) cs -> indented lev (Node a cs).
Definition indented_forest {A} (lev : A -> nat) (f : list (tree A)) : Prop :=
  falling (map (fun c => lev (t_val c)) f) /\ Forall (indented lev) f.
(** Every node's parent is the nearest earlier node that is indented less. *)
Definition parents_nearest (levels : list nat) (parents : list (option nat)) : Prop :=
  length parents = length levels /\
  forall i p, nth_error parents i = Some p -> nearest_less levels i p.
