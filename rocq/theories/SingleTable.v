(** Model of database/dservice/build_single_table_explain_results.go. *)
From Coq Require Import String List NArith ZArith QArith Bool Lia Arith.
From Verif Require Import Base ExplainTree.
Import ListNotations.

(** What the interface ExplainNode shows of a node (lines 5-10): table and time. *)
Record explain_node := { en_table : gostring; en_time : Q }.

(** dmodel/single_table_explain_result.go:7-11 *)
Record single_result := { sr_table : gostring; sr_time : Q }.

(** singleTableTree (lines 12-15): [nodes] is never empty; only its first element
    and its table name are read.  The pointer is shared, but later appends to
    [nodes] do not change these two. *)
Record table_tree := { tt_name : gostring; tt_nodes : list explain_node }.

(** build_single_table_explain_results.go:34-81: a comparison with the empty text *)
Definition is_empty (s : gostring) : bool := match s with [] => true | _ => false end.

(** toSingleTableTreeRecursive, lines 34-81; returns the pointers appended to
    [trees] (in order; [None] is a nil pointer) and the boolean result. *)
Fixpoint to_trees (node : tree explain_node) (current : option table_tree)
  {struct node} : list (option table_tree) * bool :=
  match node with
  | Node n children =>
      let fresh := if is_empty (en_table n) then None
                   else Some {| tt_name := en_table n; tt_nodes := [n] |} in
      let is_some (o : option table_tree) := match o with Some _ => true | None => false end in
      (* lines 37-62: trees appended, currentTree, treeUsed, isRoot *)
      let '(out0, current, used0, root) :=
        match current with
        | None => ([], fresh, false, is_some fresh)
        | Some t =>
            if seqb (en_table n) (tt_name t)
            then ([], Some {| tt_name := tt_name t; tt_nodes := tt_nodes t ++ [n] |}, true, false)
            else ([Some t], fresh, false, is_some fresh)
        end in
      (* lines 69-78 *)
      let loop := fix loop (cs : list (tree explain_node)) (current : option table_tree)
                      (used : bool) : list (option table_tree) * bool :=
        match cs with
        | [] => ([], used)
        | c :: cs' =>
            let '(out, u) := to_trees c current in
            if u then
              let '(out', used') := loop cs' None true in
              (out ++ (if root then [current] else []) ++ out', used')
            else
              let '(out', used') := loop cs' current used in
              (out ++ out', used')
        end in
      (* lines 64-67 *)
      if (match children with [] => true | _ => false end && root)%bool
      then (out0 ++ [current], false)
      else let '(out, used) := loop children current used0 in (out0 ++ out, used)
  end.

(** lines 24-31: dereferencing a nil tree panics *)
Fixpoint to_results (trees : list (option table_tree)) : outcome (list single_result) :=
  match trees with
  | [] => Ok []
  | None :: _ => Panic
  | Some t :: trees' =>
      match tt_nodes t with
      | [] => Panic
      | n :: _ => do r <- to_results trees';
                  Ok ({| sr_table := tt_name t; sr_time := en_time n |} :: r)
      end
  end.

(** lines 19-32 *)
Definition single_table_results (root : tree explain_node) : outcome (list single_result) :=
  to_results (fst (to_trees root None)).
