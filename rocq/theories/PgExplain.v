(** Model of database/postgres/pmodel/explain_analyze_result_node.go and
    database/postgres/pservice/explain_analyze_tree_builder.go. *)
From Coq Require Import String List NArith ZArith QArith Bool Lia Arith.
From Verif Require Import Base Dec Regex ExplainTree.
Import ListNotations.
Local Open Scope nat_scope.

(** explain_analyze_result_node.go:15-28 *)
Record result_node := {
  rn_lines : list gostring;
  rn_table : gostring;
  rn_init_cost : null_float;
  rn_cost : null_float;
  rn_rows : null_int;
  rn_width : null_int;
  rn_time_first : null_float;
  rn_time_avg : null_float;
  rn_returned : null_int;
  rn_loops : null_int }.
(** [&ExplainAnalyzeResultNode{}] *)
(** explain_analyze_tree_builder.go:31 *)
Definition empty_node : result_node :=
  Build_result_node [] [] None None None None None None None None.

(** explain_analyze_result_node.go:30-36 *)
Definition space_reg : re := Cat Bot (Star true space).
(** explain_analyze_result_node.go:31 *)
Definition on_reg : re := cats [str (lit " on "); Grp 1 (plus true word)].
(** explain_analyze_result_node.go:32 *)
Definition is_word_dot (c : rune) : bool := (is_word c || N.eqb c 46)%bool.
(** explain_analyze_result_node.go:32 *)
Definition on_namespace_reg : re :=
  cats [str (lit " on "); opt (ch 34); Grp 1 (plus true (Chr is_word_dot)); opt (ch 34)].
(** explain_analyze_result_node.go:33 *)
Definition key_reg : re := cats [str (lit " Key: "); Grp 1 (plus true word); ch 46].
(** explain_analyze_result_node.go:34 *)
Definition metric_reg : re :=
  cats [str (lit "(cost="); plus true dot; ch 41;
        opt (Grp 1 (cats [str (lit " (actual "); plus true dot; ch 41]))].
(** explain_analyze_result_node.go:35 *)
Definition estimation_reg : re :=
  cats [str (lit "(cost="); Grp 1 (plus false num); str (lit ".."); Grp 2 (plus false num);
        str (lit " rows="); Grp 3 (plus true digit); str (lit " width=");
        Grp 4 (plus true digit); ch 41].
(** explain_analyze_result_node.go:36 *)
Definition actual_reg : re :=
  cats [str (lit "(actual time="); Grp 1 (plus false num); str (lit "..");
        Grp 2 (plus false num); str (lit " rows="); Grp 3 (plus true digit);
        str (lit " loops="); Grp 4 (plus true digit); ch 41].

(** explain_analyze_result_node.go:105-123 *)
Fixpoint extract_table (lines : list gostring) : gostring :=
  match lines with
  | [] => []
  | line :: lines' =>
    match find on_reg line with
    | Some m => capd (m_caps m) 1
    | None =>
      match find on_namespace_reg line with
      | Some m => capd (m_caps m) 1
      | None =>
        match find key_reg line with
        | Some m => capd (m_caps m) 1
        | None => extract_table lines'
        end
      end
    end
  end.

(** explain_analyze_result_node.go:125-133 *)
Fixpoint metric_line (lines : list gostring) : gostring :=
  match lines with
  | [] => []
  | line :: lines' => if match_string metric_reg line then line else metric_line lines'
  end.

(** explain_analyze_result_node.go:46-70: initial cost, cost, rows, width *)
Definition parse_estimation (line : gostring)
  : outcome (null_float * null_float * null_int * null_int) :=
  match find estimation_reg line with
  | None => Ok (None, None, None, None)
  | Some m =>
      let em := capd (m_caps m) in
      do init <- float_of (em 1) line;
      do cost <- float_of (em 2) line;
      do rows <- int_of (em 3) (em 3) line;
      do width <- int_of (em 4) (em 4) line;
      Ok (Some init, Some cost, Some rows, Some width)
  end.

(** explain_analyze_result_node.go:74-99: first row, average, rows, loops *)
Definition parse_actual (line : gostring)
  : outcome (null_float * null_float * null_int * null_int) :=
  match find actual_reg line with
  | None => Ok (None, None, None, None)
  | Some m =>
      let am := capd (m_caps m) in
      do first <- float_of (am 1) line;
      do avg <- float_of (am 2) line;
      do rows <- int_of (am 3) (am 3) line;
      do loops <- int_of (am 4) (am 4) line;
      Ok (Some first, Some avg, Some rows, Some loops)
  end.

(** explain_analyze_result_node.go:38-103; [lines[0]] panics on the empty slice *)
Definition parse_node (lines : list gostring) : outcome (nat * result_node) :=
  let line := metric_line lines in
  do est <- parse_estimation line;
  do act <- parse_actual line;
  match lines with
  | [] => Panic
  | line0 :: _ =>
      let spaces := match find space_reg line0 with Some m => m_text m | None => [] end in
      let '(init, cost, rows, width) := est in
      let '(first, avg, returned, loops) := act in
      Ok (byte_len spaces,
          {| rn_lines := lines; rn_table := extract_table lines;
             rn_init_cost := init; rn_cost := cost; rn_rows := rows; rn_width := width;
             rn_time_first := first; rn_time_avg := avg;
             rn_returned := returned; rn_loops := loops |})
  end.

(** explain_analyze_result_node.go:135-139 *)
Definition total_time (n : result_node) : Q := float_or_zero (rn_time_avg n).

(** explain_analyze_result_node.go:152 *)
Definition title_reg : re :=
  cats [Star true space; opt (Grp 1 (str (lit "->"))); Star true space;
        Grp 2 (plus false dot); plus true space;
        Grp 3 (Alt (str (lit "on ")) (ch 40))].
(** explain_analyze_result_node.go:154-161 *)
Definition title (n : result_node) : gostring :=
  match find title_reg (metric_line (rn_lines n)) with
  | None => []
  | Some m => capd (m_caps m) 2
  end.

(** ** pservice/explain_analyze_tree_builder.go *)

(** explain_analyze_tree_builder.go:61-63 *)
Definition arrow_reg : re := Cat (Star true space) (str (lit "-> ")).
(** explain_analyze_tree_builder.go:62 *)
Definition info_reg : re :=
  cats [Star true space; plus true (Grp 1 (Cat (plus true word) (opt (ch 32)))); str (lit ": ")].
(** explain_analyze_tree_builder.go:63 *)
Definition is_word_space (c : rune) : bool := (is_word c || N.eqb c 32)%bool.
(** explain_analyze_tree_builder.go:63 *)
Definition summary_reg : re := cats [Bot; word; plus true (Chr is_word_space); ch 58].

(** explain_analyze_tree_builder.go:65-69 *)
Inductive line_type := LInfo | LArrow | LPlanName.

(** [if len(nodeLines) > 0 { lineNodes = append(lineNodes, nodeLines) }] *)
Definition flush (groups : list (list gostring)) (cur : list gostring) :=
  match cur with [] => groups | _ => groups ++ [cur] end.

(** explain_analyze_tree_builder.go:76-120: the loop over the lines from index
    [i]; returns lineNodes and summaryStartLine with the lines from there on.
    [cur] is nodeLines, [prev] is prevLineType. *)
Fixpoint group_loop (i : nat) (lines : list gostring) (groups : list (list gostring))
  (cur : list gostring) (prev : line_type) : list (list gostring) * (nat * list gostring) :=
  match lines with
  | [] => (groups, (0, []))
  | line :: lines' =>
      if match_string summary_reg line then (flush groups cur, (i, lines))
      else if Nat.eqb i 0 then group_loop (S i) lines' groups (cur ++ [line]) LArrow
      else
        let info := match_string info_reg line in
        let arrow := match_string arrow_reg line in
        match prev, info with
        | LInfo, true => group_loop (S i) lines' groups (cur ++ [line]) prev
        | _, _ =>
            (* explain_analyze_tree_builder.go:93-98 *)
            let '(groups, cur) := match prev with
                                  | LInfo => (flush groups cur, [])
                                  | _ => (groups, cur)
                                  end in
            if info then group_loop (S i) lines' groups (cur ++ [line]) LInfo
            else if arrow then
              let '(groups, cur) := match prev with
                                    | LArrow => (flush groups cur, [])
                                    | _ => (groups, cur)
                                    end in
              group_loop (S i) lines' groups (cur ++ [line]) LArrow
            else
              group_loop (S i) lines' (flush groups cur) [line] LPlanName
        end
  end.

(** explain_analyze_tree_builder.go:71-128 *)
Definition group_lines (lines : list gostring) : list (list gostring) * gostring :=
  let '(groups, (start, rest)) := group_loop 0 lines [] [] LPlanName in
  (groups, if Nat.ltb 0 start then join [nl] rest else []).

(** pmodel/explain_analyze_tree_node.go:9-13 *)
Record tree_node := { tn_node : result_node; tn_space : Z }.
(** explain_analyze_tree_builder.go:31 *)
Definition root_node : tree_node := {| tn_node := empty_node; tn_space := -1 |}.

(** explain_analyze_tree_builder.go:49-51; reading the field of a nil top panics *)
Fixpoint pop_indented (space : nat) (h : heap tree_node) (stack : list nat) : outcome (list nat) :=
  match stack with
  | [] => Panic
  | top :: stack' =>
      match heap_val h top with
      | None => Panic
      | Some v => if Z.leb (Z.of_nat space) (tn_space v) then pop_indented space h stack' else Ok stack
      end
  end.

(** explain_analyze_tree_builder.go:34-57 *)
Fixpoint collect_loop (groups : list (list gostring)) (h : heap tree_node) (stack : list nat)
  : outcome (heap tree_node) :=
  match groups with
  | [] => Ok h
  | g :: groups' =>
      do p <- parse_node g;
      let '(space, node) := p in
      let '(h1, n) := alloc h {| tn_node := node; tn_space := Z.of_nat space |} in
      match stack with
      | [] => Panic
      | top :: rest =>
          match heap_val h1 top with
          | None => Panic
          | Some v =>
              do stack' <- (if Z.ltb (tn_space v) (Z.of_nat space) then Ok stack
                            else pop_indented space h1 rest);
              match stack' with
              | [] => Panic
              | cur :: _ => collect_loop groups' (add_child h1 cur n) (n :: stack')
              end
          end
      end
  end.

(** explain_analyze_tree_builder.go:28-59 (collect) and 16-26 (Build): the tree and
    the summary text *)
Definition build_explain (lines : list gostring) : outcome (tree tree_node * gostring) :=
  let '(groups, summary) := group_lines lines in
  let '(h, root) := alloc [] root_node in
  do h' <- collect_loop groups h [root];
  do t <- tree_at h' root;
  Ok (t, summary).
