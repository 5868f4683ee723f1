(** Model of the way a plan reaches the page: the view models (ToViewModel of
    database/mysql/mmodel and database/postgres/pmodel), the plan text
    (client/src/components/ExplainText.svelte) and the timeline
    (client/src/components/ExplainTree/ExplainTree.ts). *)
From Coq Require Import String List NArith ZArith QArith Qminmax Bool Lia Arith.
From Verif Require Import Base Dec ExplainTree.
From Verif Require MysqlExplain PgExplain.
Import ListNotations.
Local Open Scope nat_scope.

(** html/viewmodel/vm_mysql_explain_analyze_node.go and
    vm_postgres_explain_analyze_node.go.  Simplification: one record for both, the
    width is null for MySQL (its view model has no such field).  The children are
    the tree's. *)
(** html/viewmodel/vm_postgres_explain_analyze_node.go:5-19 *)
Record vm_node := {
  vn_text : gostring;
  vn_title : gostring;
  vn_table : gostring;
  vn_init_cost : null_float;
  vn_cost : null_float;
  vn_rows : null_int;
  vn_width : null_int;
  vn_time_first : null_float;
  vn_time_avg : null_float;
  vn_returned : null_int;
  vn_loops : null_int }.

(** mmodel/explain_analyze_tree_node.go:13-31 ToViewModel, without the children *)
Definition mysql_vm (l : MysqlExplain.result_line) : vm_node :=
  {| vn_text := MysqlExplain.rl_text l;
     vn_title := MysqlExplain.title l;
     vn_table := MysqlExplain.rl_table l;
     vn_init_cost := MysqlExplain.rl_init_cost l;
     vn_cost := MysqlExplain.rl_cost l;
     vn_rows := MysqlExplain.rl_rows l;
     vn_width := None;
     vn_time_first := MysqlExplain.rl_time_first l;
     vn_time_avg := MysqlExplain.rl_time_avg l;
     vn_returned := MysqlExplain.rl_returned l;
     vn_loops := MysqlExplain.rl_loops l |}.

(** pmodel/explain_analyze_tree_node.go:15-36 ToViewModel, without the children *)
Definition pg_vm (t : PgExplain.tree_node) : vm_node :=
  let n := PgExplain.tn_node t in
  {| vn_text := join [nl] (PgExplain.rn_lines n);
     vn_title := PgExplain.title n;
     vn_table := PgExplain.rn_table n;
     vn_init_cost := PgExplain.rn_init_cost n;
     vn_cost := PgExplain.rn_cost n;
     vn_rows := PgExplain.rn_rows n;
     vn_width := PgExplain.rn_width n;
     vn_time_first := PgExplain.rn_time_first n;
     vn_time_avg := PgExplain.rn_time_avg n;
     vn_returned := PgExplain.rn_returned n;
     vn_loops := PgExplain.rn_loops n |}.

(** The loops over the children in both ToViewModel functions. *)
(** mmodel/explain_analyze_tree_node.go:13-31, pmodel/explain_analyze_tree_node.go:15-36 *)
Fixpoint node_view {A} (f : A -> vm_node) (t : tree A) : tree vm_node :=
  match t with Node a cs => Node (f a) (map (node_view f) cs) end.

(** mmodel/explain_analyze_tree.go:17-23 and pmodel/explain_analyze_tree.go:18-24:
    the root itself is left out; without children the slice stays nil, which is
    null in the JSON text ([None]). *)
Definition plan_view {A} (f : A -> vm_node) (t : tree A) : option (list (tree vm_node)) :=
  match t_children t with
  | [] => None
  | cs => Some (map (node_view f) cs)
  end.

(** Reading the JSON text makes a new object for every node: the nodes get
    different identities, here numbers counted from [k].  A node without children
    has null children, as Go leaves the slice nil. *)
(** JSON.parse; no lines in /repo *)
Fixpoint objects {A} (k : nat) (t : tree A) : tree (nat * A) * nat :=
  match t with
  | Node a cs =>
      let '(cs', k') := (fix go (k : nat) (l : list (tree A)) : list (tree (nat * A)) * nat :=
                           match l with
                           | [] => ([], k)
                           | c :: l' => let '(c', k1) := objects k c in
                                        let '(l'', k2) := go k1 l' in (c' :: l'', k2)
                           end) (S k) cs in
      (Node (k, a) cs', k')
  end.
(** JSON.parse; no lines in /repo *)
Fixpoint forest_objects {A} (k : nat) (l : list (tree A)) : list (tree (nat * A)) :=
  match l with
  | [] => []
  | c :: l' => let '(c', k1) := objects k c in c' :: forest_objects k1 l'
  end.

(** ** client/src/components/ExplainText.svelte *)
Section Texts.
  Context {A : Type}.
  Notation node := (tree (nat * A)).

  (** ExplainText.svelte:16-28, the loop over one topmost node: [visited] holds the
      identities of the objects seen, [stack] its last element first.  [None] when
      the loop has not ended after [fuel] turns. *)
  Fixpoint text_loop (fuel : nat) (current : option node) (stack : list node)
      (visited : list nat) (res : list A) : option (list nat * list A) :=
    match fuel with
    | 0 => None
    | S f =>
        match current with
        | None => Some (visited, res)
        | Some (Node (o, a) cs) =>
            let '(stack1, res1) :=
              if existsb (Nat.eqb o) visited then (stack, res)
              else (fold_left (fun st c => c :: st) (rev cs) stack, res ++ [a]) in
            match stack1 with
            | [] => text_loop f None [] (visited ++ [o]) res1
            | c :: stack2 => text_loop f (Some c) stack2 (visited ++ [o]) res1
            end
        end
    end.

  (** the size of a tree; no lines in /repo of its own *)
  Fixpoint nodes (t : node) : nat := match t with Node _ cs => S (list_sum (map nodes cs)) end.

  (** ExplainText.svelte:10-31, before the texts are taken *)
  Fixpoint text_order (l : list node) (visited : list nat) (res : list A) : option (list A) :=
    match l with
    | [] => Some res
    | t :: l' =>
        match text_loop (S (S (nodes t))) (Some t) [t] visited res with
        | None => None
        | Some (visited', res') => text_order l' visited' res'
        end
    end.
  (** ExplainText.svelte:31 *)
  Definition shown_texts (text : A -> gostring) (l : list node) : option (list gostring) :=
    option_map (map text) (text_order l [] []).
End Texts.

(** ** client/src/components/ExplainTree/ExplainTree.ts *)

(** client/src/models/explain_data/MysqlAnalyzeData.ts:13-26.  In a comparison and
    in arithmetic null counts as 0; null === 0 is false.  Simplification: exact
    arithmetic instead of doubles. *)
Definition mysql_end (d : vm_node) (start : Q) : Q :=
  let loops := int_or_zero (vn_loops d) in
  if Z.ltb 1 loops then
    if (Z.ltb 1000 loops && match vn_time_avg d with Some q => Qeq_bool q 0 | None => false end)%bool
    then (start + (1 # 10000) * inject_Z loops)%Q
    else (start + float_or_zero (vn_time_avg d) * inject_Z loops)%Q
  else float_or_zero (vn_time_avg d).
(** PostgresAnalyzeData.ts:13-16; the null it may return counts as 0 in Math.max *)
Definition pg_end (d : vm_node) (start : Q) : Q := float_or_zero (vn_time_avg d).
(** PostgresExplainData.ts:13-15 (Hasura) *)
Definition cost_end (d : vm_node) (start : Q) : Q := float_or_zero (vn_cost d).

Section Timeline.
  Context {D : Type} (end_time : D -> Q -> Q).

  (** ExplainTreeChart.ts:69-76, ExplainTree.ts:58-71: one bar *)
  Record bar := { b_x : gostring; b_lo : Q; b_hi : Q; b_goal : Q; b_num : nat; b_data : D }.

  (** Math.max(...l) of a list that is not empty *)
  (** JavaScript; no lines in /repo, used at ExplainTree.ts:52-103 *)
  Definition js_max (l : list Q) : Q := match l with [] => 0%Q | x :: l' => fold_left Qmax l' x end.

  (** ExplainTree.ts:52-103 visitAnalyze: the assignments to xToSeriesRecords in
      their order (the bar of a node is assigned before its children's and filled in
      through the pointer afterwards), the number node with its children, the next
      number and the time finished. *)
  Fixpoint visit (t : tree D) (next : nat) : list (nat * bar) * tree nat * (nat * Q) :=
    match t with
    | Node d cs =>
        let '(recs, xs, (next', finished)) :=
          (fix go (l : list (tree D)) (next : nat) : list (nat * bar) * list (tree nat) * (nat * list Q) :=
             match l with
             | [] => ([], [], (next, []))
             | c :: l' =>
                 let '(r1, x1, (n1, f1)) := visit c next in
                 let '(r2, xs2, (n2, fs2)) := go l' n1 in
                 (r1 ++ r2, x1 :: xs2, (n2, f1 :: fs2))
             end) cs (S next) in
        let start := match cs with [] => 0%Q | _ => js_max finished end in
        let end_ := Qmax (end_time d start) start in
        ((next, {| b_x := dec_of_N (N.of_nat next);
                   b_lo := Qmin start (end_ - (1 # 10000));
                   b_hi := end_;
                   b_goal := end_;
                   b_num := next;
                   b_data := d |}) :: recs,
         Node next xs,
         (next', Qmax 0 end_))
    end.

  (** ExplainTree.ts:29-48 createXTree *)
  Fixpoint create_x_tree (l : list (tree D)) (next : nat) : list (nat * bar) * list (tree nat) :=
    match l with
    | [] => ([], [])
    | t :: l' =>
        let '(r1, x1, (n1, _)) := visit t next in
        let '(r2, xs2) := create_x_tree l' n1 in
        (r1 ++ r2, x1 :: xs2)
    end.

  (** ExplainTree.ts:113-115: the last assignment to a key counts; a missing key is
      a TypeError *)
  Definition get_from_x (recs : list (nat * bar)) (n : nat) : outcome bar :=
    match find (fun r => Nat.eqb n (fst r)) (rev recs) with
    | Some r => Ok (snd r)
    | None => Panic
    end.

  (** ExplainTree.ts:125-135 getSeriesDataRecursive *)
  Fixpoint collect_node (recs : list (nat * bar)) (x : tree nat) : outcome (list bar) :=
    match x with
    | Node n cs =>
        do b <- get_from_x recs n;
        do bs <- (fix go (l : list (tree nat)) : outcome (list bar) :=
                    match l with
                    | [] => Ok []
                    | c :: l' => do b1 <- collect_node recs c; do b2 <- go l'; Ok (b1 ++ b2)
                    end) cs;
        Ok (b :: bs)
    end.
  (** ExplainTree.ts:117-135 *)
  Fixpoint collect_nodes (recs : list (nat * bar)) (l : list (tree nat)) : outcome (list bar) :=
    match l with
    | [] => Ok []
    | c :: l' => do b1 <- collect_node recs c; do b2 <- collect_nodes recs l'; Ok (b1 ++ b2)
    end.

  (** ExplainTree.ts:121 *)
  Definition bar_less (a b : bar) : bool := Nat.ltb (b_num a) (b_num b).
  (** ExplainTree.ts:109-123: the constructor and getSeriesData; [srt] is
      Array.prototype.sort with that comparison. *)
  Definition timeline (srt : list bar -> list bar) (l : list (tree D)) : outcome (list bar) :=
    let '(recs, xs) := create_x_tree l 0 in
    do bs <- collect_nodes recs xs;
    Ok (srt bs).
End Timeline.
Arguments bar : clear implicits.

(** ** The pages *)

(** client/src/pages/suggest/mysql/SuggestMysqlPage.svelte,
    postgres/SuggestPostgresPage.svelte, hasura/SuggestHasuraPage.svelte: text and
    timeline are shown only if there are nodes; hovering over a bar puts the text
    with its number in bold (ExplainText.svelte:36, ExplainAnalyzeChart.svelte). *)
Record plan_panel := { pp_texts : list gostring; pp_bars : list (bar (nat * vm_node)) }.
(** SuggestMysqlPage.svelte and its two siblings: the parts named above (ExplainText.svelte:36) *)
Definition plan_page (end_time : vm_node -> Q -> Q)
    (srt : list (bar (nat * vm_node)) -> list (bar (nat * vm_node)))
    (v : option (list (tree vm_node))) : outcome (option plan_panel) :=
  match v with
  | None => Ok None
  | Some l =>
      let l' := forest_objects 0 l in
      match shown_texts (fun d => vn_text d) l' with
      | None => Panic
      | Some texts =>
          do bars <- timeline (fun d => end_time (snd d)) srt l';
          Ok (Some {| pp_texts := texts; pp_bars := bars |})
      end
  end.
